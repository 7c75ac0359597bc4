(** * Properties C94-C95: smoothing, and the LORE neighborhood *)
From Verif Require Import Prelude M_Fuzzy M_Discretize M_Rule M_FDT M_ID3 M_Neighborhood M_Sampling M_Genetic M_Utils M_Lore.
From Verif Require Import P_FuzzyVar P_Metrics P_Factual P_Counterfactual P_Neighborhood2 P_Sampling P_Genetic P_Genetic2 P_Utils P_Utils2 P_Utils3 P_Utils4 P_Lore P_Lore2 P_Lore3.
From Verif Require Import S_Utils S_Genetic S_Lore S_Lore2.
From Verif Require Import Properties_Utils3 Properties_Lore.
Unset Implicit Arguments.
Open Scope string_scope. Open Scope list_scope. Open Scope Qc_scope.

(** ** C94 *)
(** the rows kept are, in order, those without an outlying value after clamping; behind them comes the instance, as it was given, with
    the outcome of the black box; the array holds the codes of the feature columns *)
Theorem C94_smoothed : forall bb cls instance df continuous X2E feat_idx encs n ndf M, rectangular n df -> NoDup continuous -> NoDup (dkeys encs) ->
  smooth_neighborhood bb cls instance df continuous X2E feat_idx encs = Ok (ndf, M) ->
  In cls (dkeys df) /\ List.length df = S (List.length instance) /\ dkeys ndf = dkeys df /\
  exists middle rows, clamped_frame X2E feat_idx continuous df middle /\ StronglySorted lt rows /\ (forall r, In r rows <-> (r < n)%nat /\ inlying middle continuous r) /\
    (forall i c col v, nth_error (dkeys df) i = Some c -> dget c middle = Some col -> nth_error (qz (bb instance) :: instance) i = Some v -> dget c ndf = Some (pick rows col ++ [CNum v])) /\
    (instance <> [] -> List.length M = S (List.length rows)) /\
    forall r row j c, nth_error M r = Some row -> nth_error (filter (fun c => negb (eqb c cls)) (dkeys df)) j = Some c ->
      exists v w, value_at ndf c r = Some v /\ nth_error row j = Some w /\ code_of encs c v w.
Proof. intros. eapply smooth_spec; eassumption. Qed.
(** if no continuous column is constant, at most a ninth of the rows is lost for each of them *)
Theorem C94_few_rows_lost : forall bb cls instance df continuous X2E feat_idx encs n ndf M, rectangular n df -> NoDup continuous -> NoDup (dkeys encs) -> instance <> [] ->
  smooth_neighborhood bb cls instance df continuous X2E feat_idx encs = Ok (ndf, M) ->
  (forall middle c, clamped_frame X2E feat_idx continuous df middle -> In c continuous -> exists vs, dget c middle = Some (map CNum vs) /\ ~ constant vs) ->
  (9 * (S n - List.length M) <= List.length continuous * n)%nat.
Proof.
  intros bb cls instance df continuous X2E feat_idx encs n ndf M R NC NK NI H C. destruct (smooth_spec _ _ _ _ _ _ _ _ _ R NC NK _ _ H) as (_ & _ & _ & middle & rows & CF & SS & IR & _ & LM & _).
  rewrite (LM NI). replace (S n - S (List.length rows))%nat with (n - List.length rows)%nat by lia. apply (few_dropped n middle); [eapply clamped_rect; eassumption|assumption|assumption|]. intros c I. exact (C middle c CF I).
Qed.
(** a continuous column that is constant, or becomes so by clamping, costs every row: only the instance is left; without continuous
    columns no row is lost *)
Theorem C94_constant_column_loses_all : forall bb cls instance df continuous X2E feat_idx encs n ndf M, rectangular n df -> NoDup continuous -> NoDup (dkeys encs) ->
  smooth_neighborhood bb cls instance df continuous X2E feat_idx encs = Ok (ndf, M) ->
  (forall middle c vs, clamped_frame X2E feat_idx continuous df middle -> In c continuous -> dget c middle = Some (map CNum vs) -> constant vs ->
     map snd ndf = map (fun v => [CNum v]) (qz (bb instance) :: instance)) /\
  (continuous = [] -> forall c col, dget c df = Some col -> exists v, dget c ndf = Some (col ++ [v])).
Proof.
  intros bb cls instance df continuous X2E feat_idx encs n ndf M R NC NK H. destruct (smooth_spec _ _ _ _ _ _ _ _ _ R NC NK _ _ H) as (_ & LD & KN & middle & rows & CF & SS & IR & G & _).
  assert (KM : dkeys middle = dkeys df) by apply CF. destruct R as (ND & R). split.
  - intros mid' c vs CF' I D C. assert (E : rows = []).
    { destruct rows as [|r rows']; [reflexivity|]. exfalso. destruct (proj1 (IR r) (or_introl eq_refl)) as (_ & L). destruct (L c I) as (ws & w & Dw & _ & W).
      assert (ws = vs). { destruct CF as (_ & _ & CF), CF' as (_ & _ & CF'). destruct (CF c I) as (i & o & lo & hi & v1 & w1 & A1 & A2 & A3 & A4 & A5 & A6). destruct (CF' c I) as (i' & o' & lo' & hi' & v2 & w2 & B1 & B2 & B3 & B4 & B5 & B6).
        assert (J : forall a b : list Qc, map CNum a = map CNum b -> a = b) by (intros a b T; assert (T' := f_equal numbers T); rewrite !numbers_map in T'; congruence).
        assert (w1 = ws) by (apply J; congruence). assert (w2 = vs) by (apply J; congruence). assert (v2 = v1) by (apply J; congruence). subst. assert (i' = i) by congruence. subst.
        assert (o' = o). { unfold column_values in *. rewrite A2 in B2. clear - B2. revert o' B2. induction o as [|x o IH]; intros [|y o'] E; try discriminate; [reflexivity|]. cbn in E. injection E as -> E. f_equal. apply IH. assumption. } subst.
        assert (lo' = lo /\ hi' = hi) as (-> & ->). { destruct A3 as (P1 & P2 & P3), B3 as (Q1 & Q2 & Q3). split; apply Qcle_antisym; try apply P3; try apply Q3; assumption. }
        clear - A6 B6. revert vs B6. induction A6 as [|v w l l' Hc A6 IH]; intros vs B6; inversion B6 as [|? w' ? ls Hc' B6']; subst; [reflexivity|]. f_equal; [|apply IH; assumption].
        destruct Hc as (H1 & H2 & H3), Hc' as (H1' & H2' & H3'). destruct (Qclt_le_dec v lo) as [X|X]; [rewrite H1, H1'; auto|]. destruct (Qclt_le_dec hi v) as [Y|Y]; [rewrite H2, H2'; auto|]. rewrite H3, H3'; auto. }
      subst ws. exact (constant_outlying vs w C W). }
    subst rows. apply nth_error_ext.
    { rewrite !map_length. assert (T : List.length (dkeys ndf) = List.length (dkeys df)) by congruence. unfold dkeys in T. rewrite !map_length in T. rewrite T, LD. reflexivity. }
    intros i Li. rewrite map_length in Li. rewrite !nth_error_map. destruct (nth_error ndf i) as [(k & col)|] eqn:E; [|apply nth_error_None in E; lia]. cbn [option_map snd].
    assert (Nk : nth_error (dkeys df) i = Some k) by (rewrite <- KN; unfold dkeys; rewrite nth_error_map, E; reflexivity).
    assert (Bi : (i < List.length (qz (bb instance) :: instance))%nat). { assert (T : (i < List.length (dkeys df))%nat) by (apply nth_error_Some; congruence). unfold dkeys in T. rewrite map_length, LD in T. exact T. }
    destruct (nth_error (qz (bb instance) :: instance) i) as [v|] eqn:V; [|apply nth_error_None in V; lia]. cbn [option_map].
    assert (IM : In k (dkeys middle)) by (rewrite KM; eapply nth_error_In; eassumption). apply dget_ex in IM. destruct IM as (mc & DM). assert (T := G i k mc v Nk DM V). cbn [pick map app] in T.
    apply nth_error_In in E. apply dget_nodup in E; [|rewrite KN; assumption]. congruence.
  - intros -> c col D. assert (I := dget_Some_key _ _ D). apply In_nth_error in I. destruct I as (i & I).
    assert (Bi : (i < List.length (qz (bb instance) :: instance))%nat). { assert (T : (i < List.length (dkeys df))%nat) by (apply nth_error_Some; congruence). unfold dkeys in T. rewrite map_length, LD in T. exact T. }
    destruct (nth_error (qz (bb instance) :: instance) i) as [v|] eqn:V; [|apply nth_error_None in V; lia]. exists (CNum v).
    assert (DM : dget c middle = Some col) by (destruct CF as (_ & O & _); rewrite (O c (fun x => x)); assumption). rewrite (G i c col v I DM V). f_equal. f_equal.
    assert (Lc := R c col (dget_In _ _ D)).
    assert (ER : rows = seq 0 n).
    { assert (ALL : forall r, In r rows <-> (r < n)%nat) by (intro r; rewrite IR; split; [tauto|]; intro; split; [assumption|intros d []]).
      clear - SS ALL. assert (Q : forall k rows, StronglySorted lt rows -> (forall r, In r rows <-> (k <= r < k + n)%nat) -> rows = seq k n).
      { clear. induction n as [|n IH]; intros k rows SS A; [destruct rows as [|r rows]; [reflexivity|destruct (proj1 (A r) (or_introl eq_refl)); lia]|]. cbn [seq].
        assert (Ik : In k rows) by (apply A; lia). destruct rows as [|r rows]; [destruct Ik|]. inversion SS as [|? ? SS' F]; subst. rewrite Forall_forall in F. assert (r = k). { destruct Ik as [->|Ik]; [reflexivity|]. specialize (F k Ik). assert (Br := proj1 (A r) (or_introl eq_refl)). lia. } subst r. f_equal.
        apply IH; [assumption|]. intro r. split; [intro I; assert (B := proj1 (A r) (or_intror I)); specialize (F r I); lia|]. intro B. assert (I : In r (k :: rows)) by (apply A; lia). destruct I as [->|I]; [lia|assumption]. }
      apply Q; [assumption|]. intro r. rewrite ALL. lia. }
    rewrite ER, <- Lc. unfold pick. clear. induction col as [|x col IH]; [reflexivity|]. cbn [List.length seq map nth]. f_equal. rewrite <- seq_shift, map_map. exact IH.
Qed.
(** an encoder of another column than the class whose classes are all text refuses the instance's code *)
Theorem C94_text_encoder_fails : forall bb cls instance df continuous X2E feat_idx encs n c classes, rectangular n df -> NoDup continuous -> NoDup (dkeys encs) -> instance <> [] ->
  c <> cls -> dget c encs = Some classes -> (forall q, ~ In (CNum q) classes) ->
  forall r, smooth_neighborhood bb cls instance df continuous X2E feat_idx encs <> Ok r.
Proof.
  intros bb cls instance df continuous X2E feat_idx encs n c classes R NC NK NI Nc D NT (ndf & M) H.
  destruct (smooth_spec _ _ _ _ _ _ _ _ _ R NC NK _ _ H) as (_ & LD & KN & middle & rows & CF & SS & IR & G & LM & Q). assert (KM : dkeys middle = dkeys df) by apply CF.
  assert (IC : In c (dkeys df)).
  { pose proof H as H0. unfold smooth_neighborhood in H0. repeat match type of H0 with bind ?r _ = _ => destruct r as [?|] eqn:?; [|discriminate]; cbn [bind] in H0 end.
    match type of H0 with (if ?b then _ else _) = _ => destruct b eqn:LE; [discriminate|] end. match type of H0 with (if ?b then _ else _) = _ => destruct b eqn:?; [|discriminate] end.
    match type of H0 with bind ?r _ = _ => destruct r as [edf|] eqn:E; [|discriminate] end. cbn [bind] in H0. apply encoders_fold in E; [|assumption]. destruct E as (_ & _ & EC). destruct (EC c classes Nc (dget_In _ _ D)) as (col & _ & Dc & _). rewrite dget_filter in Dc by assumption.
    rewrite <- KN. apply (f_equal (fun r => match r with Ok p => fst p | Err _ => [] end)) in H0. cbv beta iota in H0. cbn [fst] in H0. rewrite <- H0. eapply dget_Some_key. exact Dc. }
  apply In_nth_error in IC. destruct IC as (i & I).
  assert (Bi : (i < List.length (qz (bb instance) :: instance))%nat). { assert (T : (i < List.length (dkeys df))%nat) by (apply nth_error_Some; congruence). unfold dkeys in T. rewrite map_length, LD in T. exact T. }
  destruct (nth_error (qz (bb instance) :: instance) i) as [v|] eqn:V; [|apply nth_error_None in V; lia].
  assert (IM : In c (dkeys middle)) by (rewrite KM; eapply nth_error_In; eassumption). apply dget_ex in IM. destruct IM as (mc & DM). assert (T := G i c mc v I DM V).
  assert (F : In c (filter (fun c => negb (eqb c cls)) (dkeys df))) by (apply not_class; split; [eapply nth_error_In; eassumption|assumption]). apply In_nth_error in F. destruct F as (j & F).
  destruct (nth_error M (List.length rows)) as [row|] eqn:NR; [|apply nth_error_None in NR; rewrite (LM NI) in NR; lia].
  destruct (Q _ _ _ _ NR F) as (x & w & X & _ & CO). unfold value_at in X. rewrite T in X. rewrite nth_error_app2 in X by (unfold pick; rewrite map_length; apply le_n). unfold pick in X. rewrite map_length, Nat.sub_diag in X. cbn in X. injection X as <-.
  unfold code_of in CO. rewrite D in CO. destruct CO as (k & Nk & _). exact (NT v (nth_error_In _ _ Nk)).
Qed.
(** smoothing what was smoothed may lose further rows: the loop that should repeat it never runs *)
Definition sx_df (l : list Qc) : frame := [("cls", map (fun _ => CNum 0) l); ("a", map CNum l)].
Definition sx_values : list Qc := repeat 0 20 ++ [1; qz 100].
Definition sx_X : list (list Qc) := [[0]; [qz 100]].
Lemma sx_smoothed : smooth_neighborhood (fun _ => 0%Z) "cls" [0] (sx_df sx_values) ["a"] sx_X [("a", 0%nat)] [] = Ok (sx_df (repeat 0 20 ++ [1; 0]), map (fun q => [CNum q]) (repeat 0 20 ++ [1; 0])).
Proof. qex. Qed.
Theorem C94_outliers_remain_refuted : ~ forall bb cls instance df continuous X2E feat_idx encs ndf M, 
  smooth_neighborhood bb cls instance df continuous X2E feat_idx encs = Ok (ndf, M) ->
  forall r, (S r < List.length M)%nat -> inlying (map (fun cc => (fst cc, removelast (snd cc))) ndf) continuous r.
Proof.
  intro A. specialize (A _ _ _ _ _ _ _ _ _ _ sx_smoothed 20%nat). specialize (A ltac:(vm_compute; lia) "a" (or_introl eq_refl)).
  destruct A as (vs & v & D & Nv & W). apply z_below_spec in W.
  assert (EN : dget "a" (map (fun cc : string * list cell => (fst cc, removelast (snd cc))) (sx_df (repeat 0 20 ++ [1; 0]))) = Some (map CNum (repeat 0 20 ++ [1]))) by reflexivity.
  rewrite EN in D. assert (D' : map CNum (repeat 0 20 ++ [1]) = map CNum vs) by congruence. assert (T := f_equal numbers D'). rewrite !numbers_map in T. assert (T' : vs = repeat 0 20 ++ [1]) by congruence. subst vs. change (Some (1 : Qc) = Some v) in Nv. assert (V : v = 1) by congruence. subst v. vm_compute in W. discriminate.
Qed.
Print Assumptions C94_smoothed. Print Assumptions C94_few_rows_lost. Print Assumptions C94_constant_column_loses_all. Print Assumptions C94_text_encoder_fails. Print Assumptions C94_outliers_remain_refuted.
Example C94_instance : rectangular 22 (sx_df sx_values) /\ NoDup ["a"] /\ NoDup (dkeys (@nil (string * list cell))) /\
  (forall middle c, clamped_frame sx_X [("a", 0%nat)] ["a"] (sx_df sx_values) middle -> In c ["a"] -> exists vs, dget c middle = Some (map CNum vs) /\ ~ constant vs) /\
  (9 * (S 22 - List.length (repeat 0 20 ++ [1; 0])%Qc) = 9)%nat.
Proof.
  splits; [|repeat constructor; tauto|constructor| |reflexivity].
  - split; [repeat constructor; cbn; intuition discriminate|]. intros c col [E|[E|[]]]; apply (f_equal snd) in E; cbn [snd] in E; rewrite <- E; reflexivity.
  - intros middle c (_ & _ & C) [<-|[]]. destruct (C "a" (or_introl eq_refl)) as (i & o & lo & hi & vs & ws & I & O & (R1 & R2 & R3) & D & D' & F). exists ws. split; [assumption|]. intro K.
    assert (i = 0%nat) by (cbn in I; congruence). subst i. assert (o = [0; qz 100]) as ->. { unfold column_values in O. cbn in O. destruct o as [|p [|q [|r o]]]; try discriminate. cbn in O. congruence. }
    assert (lo <= 0 /\ qz 100 <= hi) as (LO & HI). { split; [apply R3; left; reflexivity|apply R3; right; left; reflexivity]. }
    assert (0 <= lo /\ hi <= qz 100) as (LO' & HI'). { split; [destruct R1 as [<-|[<-|[]]]|destruct R2 as [<-|[<-|[]]]]; discriminate. }
    assert (T := f_equal (fun d => match d with Some x => numbers x | None => Err KeyError end) D). cbv beta iota in T. change (dget "a" (sx_df sx_values)) with (Some (map CNum sx_values)) in T. rewrite !numbers_map in T. assert (E : vs = sx_values) by congruence. subst vs.
    destruct (Forall2_nth F 0%nat (a := 0) eq_refl) as (w0 & N0 & (_ & _ & C0)). destruct (Forall2_nth F 21%nat (a := qz 100) eq_refl) as (w1 & N1 & (_ & _ & C1)).
    assert (P100 : 0 <= qz 100) by discriminate. specialize (C0 LO (Qcle_trans _ _ _ P100 HI)). specialize (C1 (Qcle_trans _ _ _ LO P100) HI). assert (X := K w0 w1 (nth_error_In _ _ N0) (nth_error_In _ _ N1)). rewrite C0, C1 in X. discriminate.
Qed.

(** ** C95 *)
(** the dataset is well formed: distinct names, the class first, encoders for distinct columns *)
Definition lore_dataset (cls : string) (features : list string) (ds : dataset) : Prop :=
  ds_columns ds = cls :: features /\ NoDup (ds_columns ds) /\ NoDup (ds_discrete ds) /\ NoDup (ds_continuous ds) /\ NoDup (dkeys (ds_encoders ds)).
Lemma explain_rect bb ds Z df : NoDup (ds_columns ds) -> NoDup (ds_discrete ds) -> explain_frame bb ds Z = Ok df -> rectangular (List.length Z) df /\ dkeys df = ds_columns ds.
Proof.
  intros N ND H. unfold explain_frame in H. destruct (@C75_columns _ _ _ _ _ _ _ N ND H) as (L & K & G). split; [|assumption]. split; [rewrite K; assumption|]. intros c col I. assert (D : dget c df = Some col) by (apply dget_nodup; [rewrite K; assumption|assumption]).
  assert (Ic := dget_Some_key _ _ D). rewrite K in Ic. apply In_nth_error in Ic. destruct Ic as (i & Ic). destruct (G i c Ic) as (col' & t & D' & _ & Lc & _). rewrite D in D'. injection D' as <-. rewrite Lc, map_length. reflexivity.
Qed.
Lemma lore_inv bb argsort cls ds normal rnd hall instance size X2E idx s : lore_neighborhood bb argsort cls ds normal rnd hall instance size X2E idx = Ok s ->
  exists decoded classes target fv x dfZ df Z ndf M,
    mapM (fun iv : nat * string => do v <- lget instance (fst iv); match dget (snd iv) (ds_encoders ds) with Some classes => do d <- inverse_transform classes [CNum v]; lget d 0 | None => Ok (CNum v) end)
      (enumerate (filter (fun c => negb (eqb c cls)) (ds_columns ds))) = Ok decoded /\
    dget cls (ds_encoders ds) = Some classes /\ inverse_transform classes [CNum (qz (bb instance))] = Ok target /\
    calculate_feature_values normal X2E (ds_columns ds) cls (ds_discrete ds) (ds_continuous ds) size = Ok fv /\ lget X2E idx = Ok x /\ explain_frame bb ds X2E = Ok dfZ /\
    genetic_neighborhood bb argsort cls ds fv rnd hall dfZ x size = Ok (df, Z) /\
    smooth_neighborhood bb cls instance df (filter (fun c => negb (eqb c cls)) (ds_continuous ds)) X2E (dict_of (map (fun kf : nat * string => (snd kf, fst kf)) (ds_idx ds))) (ds_encoders ds) = Ok (ndf, M) /\
    exists yd, dget cls ndf = Some yd /\ s = mkL decoded target ndf (filter (fun cc : string * list cell => negb (eqb (fst cc) cls)) ndf) (map (bb_cells bb) M) yd.
Proof.
  intro H. unfold lore_neighborhood in H.
  match type of H with bind ?r _ = _ => destruct r as [decoded|] eqn:E1; [|discriminate] end. cbn [bind] in H.
  destruct (dget cls (ds_encoders ds)) as [classes|] eqn:E2; [|discriminate]. cbn [ret_opt bind] in H.
  match type of H with bind ?r _ = _ => destruct r as [target|] eqn:E3; [|discriminate] end. cbn [bind] in H.
  match type of H with bind ?r _ = _ => destruct r as [fv|] eqn:E4; [|discriminate] end. cbn [bind] in H.
  match type of H with bind ?r _ = _ => destruct r as [x|] eqn:E5; [|discriminate] end. cbn [bind] in H.
  match type of H with bind ?r _ = _ => destruct r as [dfZ|] eqn:E6; [|discriminate] end. cbn [bind] in H.
  match type of H with bind ?r _ = _ => destruct r as [(df & Z)|] eqn:E7; [|discriminate] end. cbn [bind fst snd] in H. cbv zeta in H.
  match type of H with bind ?r _ = _ => destruct r as [(ndf & M)|] eqn:E8; [|discriminate] end. cbn [bind fst snd] in H.
  unfold fcolumn in H. destruct (dget cls ndf) as [yd|] eqn:E9; [|discriminate]. cbn [ret_opt bind] in H.
  exists decoded, classes, target, fv, x, dfZ, df, Z, ndf, M. repeat (split; [first [assumption|reflexivity]|]). exists yd. split; [first [assumption|reflexivity]|]. congruence.
Qed.
(** the decoded instance and target are the labels of the codes *)
Theorem C95_decoded : forall bb argsort cls features ds normal rnd hall instance size X2E idx s, lore_dataset cls features ds ->
  lore_neighborhood bb argsort cls ds normal rnd hall instance size X2E idx = Ok s ->
  (exists classes label, dget cls (ds_encoders ds) = Some classes /\ l_decoded_target s = [label] /\ (0 <= bb instance)%Z /\ nth_error classes (Z.to_nat (bb instance)) = Some label) /\
  List.length (l_decoded_instance s) = List.length features /\
  forall i c, nth_error features i = Some c -> exists v w, nth_error instance i = Some v /\ nth_error (l_decoded_instance s) i = Some w /\ code_of (ds_encoders ds) c w (CNum v).
Proof.
  intros bb argsort cls features ds normal rnd hall instance size X2E idx s (C & N & ND & NC & NK) H. apply lore_inv in H.
  destruct H as (decoded & classes & target & fv & x & dfZ & df & Z & ndf & M & E1 & E2 & E3 & E4 & E5 & E6 & E7 & E8 & yd & E9 & ->). cbn [l_decoded_target l_decoded_instance].
  assert (F : filter (fun c => negb (eqb c cls)) (ds_columns ds) = features).
  { rewrite C in N |- *. cbn [filter]. rewrite eqb_refl. cbn [negb]. inversion N as [|? ? NI N']; subst. apply filter_noop. intros c I. apply negb_true_iff. apply (proj2 (@eqb_neq _ _ c cls)). intro; subst; contradiction. }
  rewrite F in E1. split; [|split].
  - destruct (@inverse_nth _ _ _ E3) as (L & G). destruct (G 0%nat (CNum (qz (bb instance))) eq_refl) as (k & K & B & T).
    exists classes. destruct target as [|label [|? ?]]; try discriminate. exists label. split; [assumption|]. split; [reflexivity|].
    assert (Kz : bb instance = Z.of_nat k). { assert (K' : qz (bb instance) = qz (Z.of_nat k)) by (change (qz (Z.of_nat k)) with (qn k); congruence). apply (proj1 (qz_inj _ _)) in K'. assumption. }
    rewrite Kz, Nat2Z.id. split; [lia|]. cbn in T. congruence.
  - rewrite (mapM_length _ _ E1). unfold enumerate. rewrite combine_length, seq_length. lia.
  - intros i c I. apply mapM_nth_error in E1. destruct E1 as (_ & E1). destruct (E1 i (i, c) (enumerate_nth _ _ I)) as (w & W & Nw). cbn [fst snd] in W.
    unfold lget at 1 in W. destruct (nth_error instance i) as [v|] eqn:V; [|discriminate]. cbn [ret_opt bind] in W. exists v, w. split; [reflexivity|]. split; [assumption|]. unfold code_of.
    destruct (dget c (ds_encoders ds)) as [u|]; [|injection W as <-; reflexivity].
    destruct (inverse_transform u [CNum v]) as [d|] eqn:D; [|discriminate]. cbn [bind] in W. destruct (@inverse_nth _ _ _ D) as (L & G). destruct (G 0%nat (CNum v) eq_refl) as (k & K & B & T). exists k. split; [|assumption].
    unfold lget in W. destruct (nth_error d 0) as [d0|]; [|discriminate]. cbn in W. congruence.
Qed.
(** what is left behind: columns, labels and outcomes have one entry per row; the last row is the instance, labelled with the number of
    its outcome; every other row stems from a row bred from the record, is labelled with the outcome of that row, and keeps its
    values (unless decoded or integer) but for clamping; the outcomes are those of the codes of the rows *)
Theorem C95_fit : forall bb argsort cls features ds normal rnd hall instance size X2E idx s, lore_dataset cls features ds -> instance <> [] ->
  lore_neighborhood bb argsort cls ds normal rnd hall instance size X2E idx = Ok s ->
  dkeys (l_Xy s) = cls :: features /\ dkeys (l_X s) = features /\ (forall c, c <> cls -> dget c (l_X s) = dget c (l_Xy s)) /\ dget cls (l_Xy s) = Some (l_y_decoded s) /\
  List.length instance = List.length features /\
  exists m, List.length (l_y s) = S m /\ (forall c col, dget c (l_Xy s) = Some col -> List.length col = S m) /\
  (forall i c v, nth_error features i = Some c -> nth_error instance i = Some v -> value_at (l_X s) c m = Some (CNum v)) /\
  nth_error (l_y_decoded s) m = Some (CNum (qz (bb instance))) /\
  (forall r, (r < m)%nat -> exists x fv z classes label, nth_error X2E idx = Some x /\ bred x fv z /\ dget cls (ds_encoders ds) = Some classes /\ (0 <= bb z)%Z /\
     nth_error classes (Z.to_nat (bb z)) = Some label /\ nth_error (l_y_decoded s) r = Some label /\
     forall j c i observed, nth_error features j = Some c -> In c (ds_continuous ds) -> ~ In c (ds_discrete ds) -> dget c (ds_types ds) <> Some "integer" -> dget c (dict_of (map (fun kf : nat * string => (snd kf, fst kf)) (ds_idx ds))) = Some i ->
       column_values X2E i observed -> exists lo hi v w, range_of observed lo hi /\ nth_error z j = Some v /\ clamped lo hi v w /\ value_at (l_X s) c r = Some (CNum w)) /\
  forall r, (r <= m)%nat -> exists codes, nth_error (l_y s) r = Some (bb codes) /\ List.length codes = List.length features /\
    forall j c, nth_error features j = Some c -> exists v q, value_at (l_X s) c r = Some v /\ nth_error codes j = Some q /\ code_of (ds_encoders ds) c v (CNum q).
Proof.
  intros bb argsort cls features ds normal rnd hall instance size X2E idx s (C & N & ND & NC & NK) NI H. apply lore_inv in H.
  destruct H as (decoded & classes & target & fv & x & dfZ & df & Z & ndf & M & E1 & E2 & E3 & E4 & E5 & E6 & E7 & E8 & yd & E9 & ->). cbn [l_Xy l_X l_y l_y_decoded].
  assert (F : filter (fun c => negb (eqb c cls)) (cls :: features) = features).
  { rewrite C in N. cbn [filter]. rewrite eqb_refl. cbn [negb]. inversion N as [|? ? NIc N']; subst. apply filter_noop. intros c I. apply negb_true_iff. apply (proj2 (@eqb_neq _ _ c cls)). intro; subst; contradiction. }
  pose proof (C93_two_outcomes _ _ _ _ _ _ _ _ _ _ _ _ E7) as (_ & BR & LB). pose proof (genetic_inv _ _ _ _ _ _ _ _ _ _ _ _ E7) as (discrete & RM & _ & _ & EX).
  destruct (explain_rect _ _ _ _ N ND EX) as (RD & KD). rewrite C in KD.
  assert (NCF : NoDup (filter (fun c => negb (eqb c cls)) (ds_continuous ds))) by (apply NoDup_filter; assumption).
  destruct (smooth_spec _ _ _ _ _ _ _ _ _ RD NCF NK _ _ E8) as (IC & LD & KN & middle & rows & CF & SS & IR & G & LM & Q). specialize (LM NI). rewrite KD in *. assert (KM : dkeys middle = cls :: features) by (destruct CF as (CF & _); rewrite CF; assumption).
  assert (LF : List.length instance = List.length features). { assert (T : List.length (dkeys df) = S (List.length features)) by (rewrite KD; reflexivity). unfold dkeys in T. rewrite map_length, LD in T. lia. }
  split; [assumption|]. split; [rewrite keys_filter, KN; exact F|]. split; [intros c Nc; apply dget_filter; assumption|]. split; [assumption|]. split; [assumption|].
  assert (ED : exists classes', dget cls (ds_encoders ds) = Some classes') by eauto.
  assert (ICD : In cls (ds_discrete ds)). { apply list_remove_filter in RM; [tauto|assumption]. }
  (* a column of the result *)
  assert (COL : forall i c, nth_error (cls :: features) i = Some c -> exists mc v, dget c middle = Some mc /\ nth_error (qz (bb instance) :: instance) i = Some v /\ dget c ndf = Some (pick rows mc ++ [CNum v])).
  { intros i c I. assert (IM : In c (dkeys middle)) by (rewrite KM; eapply nth_error_In; eassumption). apply dget_ex in IM. destruct IM as (mc & DM). assert (Bi : (i < List.length (cls :: features))%nat) by (apply nth_error_Some; congruence).
    destruct (nth_error (qz (bb instance) :: instance) i) as [v|] eqn:V; [|apply nth_error_None in V; cbn [List.length] in *; lia]. exists mc, v. split; [assumption|]. split; [reflexivity|]. apply (G i); assumption. }
  assert (LP : forall mc v, List.length (pick rows mc ++ [CNum v]) = S (List.length rows)) by (intros; rewrite app_length; unfold pick; rewrite map_length; cbn; lia).
  assert (VL : forall mc v, nth_error (pick rows mc ++ [CNum v]) (List.length rows) = Some (CNum v)) by (intros; rewrite nth_error_app2 by (unfold pick; rewrite map_length; apply le_n); unfold pick; rewrite map_length, Nat.sub_diag; reflexivity).
  assert (VK : forall mc v r k, nth_error rows r = Some k -> nth_error (pick rows mc ++ [CNum v]) r = Some (nth k mc (CNum 0))).
  { intros mc v r k Nr. assert (B : (r < List.length rows)%nat) by (apply nth_error_Some; congruence). rewrite nth_error_app1 by (unfold pick; rewrite map_length; assumption). unfold pick. rewrite nth_error_map, Nr. reflexivity. }
  assert (NF : forall i c, nth_error features i = Some c -> c <> cls). { intros i c I ->. rewrite C in N. inversion N as [|? ? NIc _]; subst. apply NIc. eapply nth_error_In; eassumption. }
  exists (List.length rows). split; [rewrite map_length; assumption|]. split; [|split; [|split; [|split]]].
  - intros c col D. assert (I := dget_Some_key _ _ D). rewrite KN in I. apply In_nth_error in I. destruct I as (i & I). destruct (COL i c I) as (mc & v & _ & _ & D'). rewrite D in D'. injection D' as ->. apply LP.
  - intros i c v I V. destruct (COL (S i) c I) as (mc & v' & _ & V' & D). cbn in V'. rewrite V in V'. injection V' as <-. unfold value_at. rewrite dget_filter by exact (NF i c I). rewrite D. apply VL.
  - destruct (COL 0%nat cls eq_refl) as (mc & v & _ & V & D). cbn in V. injection V as <-. rewrite E9 in D. injection D as ->. apply VL.
  - intros r Lr. destruct (nth_error rows r) as [k|] eqn:Nk; [|apply nth_error_None in Nk; lia]. destruct (proj1 (IR k) (nth_error_In _ _ Nk)) as (Bk & INL).
    destruct (nth_error Z k) as [z|] eqn:Zk; [|apply nth_error_None in Zk; lia]. destruct (LB features classes C N ND E2 k z Zk) as (P0 & label & NL & VA).
    exists x, fv, z, classes, label. unfold lget in E5. destruct (nth_error X2E idx) as [x'|]; [|discriminate]. cbn in E5. split; [congruence|]. split; [apply BR; eapply nth_error_In; eassumption|]. split; [assumption|]. split; [assumption|]. split; [assumption|]. split.
    + destruct (COL 0%nat cls eq_refl) as (mc & v & DM & V & D). rewrite E9 in D. injection D as ->. rewrite (VK mc v r k Nk). destruct CF as (_ & O & _). rewrite O in DM by (rewrite not_class; tauto). unfold value_at in VA. rewrite DM in VA. rewrite (nth_error_nth _ _ (CNum 0) VA). reflexivity.
    + intros j c i observed J Ic Nd Nt Fi CV. destruct (COL (S j) c J) as (mc & v & DM & V & D). destruct CF as (_ & _ & CF). destruct (CF c) as (i' & o' & lo & hi & vs & ws & D1 & D2 & D3 & D4 & D5 & D6); [apply not_class; split; [assumption|exact (NF j c J)]|].
      rewrite Fi in D1. injection D1 as <-. assert (o' = observed) as ->. { unfold column_values in *. rewrite CV in D2. clear - D2. revert o' D2. induction observed as [|y o IH]; intros [|y' o'] E; try discriminate; [reflexivity|]. cbn in E. injection E as <- E. f_equal. apply IH. assumption. }
      unfold explain_frame in EX. rewrite C in EX, N. destruct (@C75_class_first _ _ _ _ _ _ _ _ N ND ICD EX) as (_ & _ & _ & _ & _ & CFs). destruct (CFs j c k J) as (row & vz & R1 & R2 & R3); [rewrite map_length; assumption|assumption|assumption|].
      rewrite Zk in R1. injection R1 as <-. unfold value_at in R3. rewrite D4 in R3. rewrite nth_error_map in R3. destruct (nth_error vs k) as [vk|] eqn:Vk; [|discriminate]. cbn in R3. assert (vk = vz) by congruence. subst vk.
      destruct (Forall2_nth D6 _ Vk) as (w & Wk & CL). exists lo, hi, vz, w. split; [assumption|]. split; [assumption|]. split; [assumption|]. unfold value_at. rewrite dget_filter by exact (NF j c J). rewrite D, (VK mc v r k Nk). rewrite D5 in DM. injection DM as <-. f_equal. apply nth_error_nth. rewrite nth_error_map, Wk. reflexivity.
  - intros r Lr. destruct (nth_error M r) as [row|] eqn:NR; [|apply nth_error_None in NR; lia].
    exists (map (fun c => match c with CNum q => q | CStr _ => 0 end) row). rewrite nth_error_map, NR. split; [reflexivity|].
    assert (LR : List.length row = List.length features).
    { pose proof E8 as H0. unfold smooth_neighborhood in H0. repeat match type of H0 with bind ?r _ = _ => destruct r as [?|] eqn:?; [|discriminate]; cbn [bind] in H0 end.
      match type of H0 with (if ?b then _ else _) = _ => destruct b eqn:?; [discriminate|] end. match type of H0 with (if ?b then _ else _) = _ => destruct b eqn:?; [|discriminate] end.
      match type of H0 with bind ?r _ = _ => destruct r as [edf|] eqn:E; [|discriminate] end. cbn [bind] in H0. assert (EM := f_equal (fun r => match r with Ok p => snd p | Err _ => [] end) H0). assert (EN := f_equal (fun r => match r with Ok p => fst p | Err _ => [] end) H0). cbv beta iota in EM, EN. cbn [fst snd] in EM, EN. rewrite EN in E.
      apply encoders_fold in E; [|assumption]. destruct E as (EK & _). rewrite keys_filter, KN, F in EK. rewrite <- EM in NR. rewrite matrix_plain in NR. { rewrite nth_error_map in NR. destruct (nth_error _ r) in NR; [|discriminate]. cbn in NR. injection NR as <-. rewrite map_length. rewrite <- EK. unfold dkeys. rewrite map_length. reflexivity. }
      intros c I. rewrite EK in I. apply In_nth_error in I. destruct I as (i & I). exact (NF i c I). }
    rewrite map_length. split; [assumption|]. intros j c J. destruct (Q r row j c NR) as (v & w & V & W & CO); [rewrite F; assumption|]. assert (Nc := NF j c J). unfold value_at in V |- *. rewrite dget_filter by assumption.
    assert (WN : exists q, w = CNum q).
    { unfold code_of in CO. destruct (dget c (ds_encoders ds)) as [u|] eqn:U; [destruct CO as (k & _ & ->); eauto|]. subst w.
      assert (Nd : ~ In c (ds_discrete ds)). { intro I. unfold explain_frame in EX. rewrite C in EX, N. destruct (@C75_columns _ _ _ _ _ _ _ N ND EX) as (_ & _ & CC). destruct (CC (S j) c J) as (col & t & _ & _ & _ & P).
        assert (B : (0 < List.length (map bb Z))%nat). { rewrite map_length. clear - E7. apply C93_two_outcomes in E7. destruct E7 as ((u & _ & I & _) & _). destruct Z; [destruct I|cbn; lia]. }
        destruct (P 0%nat B) as (q & _ & P' & _). destruct (P' I) as (cl & _ & X & _). congruence. }
      destruct (COL (S j) c J) as (mc & vi & DM & VI & D). rewrite D in V.
      destruct (Nat.eq_dec r (List.length rows)) as [->|Ne]; [rewrite VL in V; injection V as <-; eauto|]. destruct (nth_error rows r) as [k|] eqn:Nk; [|apply nth_error_None in Nk; lia]. rewrite (VK mc vi r k Nk) in V. injection V as <-.
      destruct (proj1 (IR k) (nth_error_In _ _ Nk)) as (Bk & _).
      destruct CF as (CF1 & CF2 & CF3). destruct (in_dec string_dec c (filter (fun c => negb (eqb c cls)) (ds_continuous ds))) as [Ic|Ic].
      - destruct (CF3 c Ic) as (_ & _ & _ & _ & _ & ws & _ & _ & _ & _ & D5 & _). rewrite DM in D5. injection D5 as ->. clear. revert k. induction ws as [|y ws IH]; intros [|k]; cbn; eauto.
      - rewrite CF2 in DM by assumption. unfold explain_frame in EX. rewrite C in EX, N. destruct (@C75_columns _ _ _ _ _ _ _ N ND EX) as (_ & _ & CC). destruct (CC (S j) c J) as (col & t & Dc & _ & _ & P). rewrite DM in Dc. injection Dc as <-.
        destruct (P k) as (q & _ & _ & P1 & P2); [rewrite map_length; assumption|]. destruct (string_dec t "integer") as [Ti|Ti]; [destruct (P1 Nd Ti) as (z & _ & X)|assert (X := P2 Nd Ti)]; rewrite (nth_error_nth _ _ (CNum 0) X); eauto. }
    destruct WN as (q & ->). exists v, q. split; [assumption|]. split; [rewrite nth_error_map, W; reflexivity|assumption].
Qed.
(** without encoders for the features the outcome of the last row is that of the instance *)
Theorem C95_instance_outcome : forall bb argsort cls features ds normal rnd hall instance size X2E idx s, lore_dataset cls features ds -> instance <> [] ->
  (forall c, In c features -> dget c (ds_encoders ds) = None) -> lore_neighborhood bb argsort cls ds normal rnd hall instance size X2E idx = Ok s ->
  exists ys, l_y s = ys ++ [bb instance].
Proof.
  intros bb argsort cls features ds normal rnd hall instance size X2E idx s W NI NE H. destruct (C95_fit _ _ _ _ _ _ _ _ _ _ _ _ _ W NI H) as (_ & _ & _ & _ & LI & m & LY & _ & LR & _ & _ & Y).
  destruct (Y m (le_n m)) as (codes & Ym & LC & CO). assert (E : codes = instance).
  { apply nth_error_ext; [congruence|]. intros j Lj. destruct (nth_error features j) as [c|] eqn:J; [|apply nth_error_None in J; lia]. destruct (CO j c J) as (v & q & V & Q & K). unfold code_of in K. rewrite (NE c (nth_error_In _ _ J)) in K.
    destruct (nth_error instance j) as [w|] eqn:Wj; [|apply nth_error_None in Wj; lia]. assert (V' := LR j c w J Wj). rewrite V in V'. injection V' as ->. injection K as ->. assumption. }
  subst codes. exists (firstn m (l_y s)). rewrite <- (firstn_skipn m (l_y s)) at 1. f_equal. clear - LY Ym. revert m LY Ym. induction (l_y s) as [|y l IH]; intros [|m] L N; try discriminate; cbn in *; [destruct l; [congruence|discriminate]|]. apply IH; [congruence|assumption].
Qed.
(** a text feature makes fit fail, whatever the draws: its encoder meets the instance's code *)
Theorem C95_text_encoder_fails : forall bb argsort cls features ds normal rnd hall instance size X2E idx c classes, lore_dataset cls features ds -> instance <> [] ->
  c <> cls -> dget c (ds_encoders ds) = Some classes -> (forall q, ~ In (CNum q) classes) ->
  forall s, lore_neighborhood bb argsort cls ds normal rnd hall instance size X2E idx <> Ok s.
Proof.
  intros bb argsort cls features ds normal rnd hall instance size X2E idx c classes (C & N & ND & NC & NK) NI Nc D NT s H. apply lore_inv in H.
  destruct H as (decoded & cl & target & fv & x & dfZ & df & Z & ndf & M & _ & _ & _ & _ & _ & _ & E7 & E8 & _). apply genetic_inv in E7. destruct E7 as (discrete & _ & _ & _ & EX). destruct (explain_rect _ _ _ _ N ND EX) as (RD & _).
  exact (C94_text_encoder_fails _ _ _ _ _ _ _ _ _ _ _ RD (NoDup_filter _ NC) NK NI Nc D NT _ E8).
Qed.
Lemma encoders_distinct columns : forall df encs df' encs', foldM (fun (st : frame * encoders) c => do col <- fcolumn (fst st) c; do classes <- np_unique col; do codes <- transform classes col; Ok (dset c codes (fst st), dset c classes (snd st))) (df, encs) columns = Ok (df', encs') ->
  NoDup (dkeys encs) -> NoDup (dkeys encs').
Proof.
  induction columns as [|c columns IH]; intros df encs df' encs' H N; [cbn in H; injection H as _ <-; assumption|]. cbn [foldM] in H.
  repeat match type of H with bind (bind ?r _) _ = _ => destruct r; [|discriminate]; cbn [bind] in H end. cbn [bind fst snd] in H. apply IH in H; [assumption|]. rewrite dset_keys. destruct (memb c (dkeys encs)) eqn:E; [assumption|]. apply NoDup_snoc; [assumption|]. exact (proj1 (@memb_not_In _ _ c (dkeys encs)) E).
Qed.
Lemma generated_dataset sl dt df cls features discrete D : set_listing sl -> typed dt df -> NoDup (cls :: features) -> generate_dataset sl dt df (cls :: features) cls discrete = Ok D -> lore_dataset cls features D.
Proof.
  intros SL T N H. destruct (generate_inv _ _ _ SL T H) as (target & tmp & disc & cont & df' & encs & y & _ & _ & S & ND & _ & LE & _ & ->). split; [reflexivity|]. cbn [ds_columns ds_discrete ds_continuous ds_encoders]. split; [assumption|]. split; [assumption|]. split.
  - unfold set_discrete_continuous, type_features in S. cbv beta iota zeta in S. assert (E := f_equal snd S). cbn [snd] in E. rewrite <- E. apply NoDup_filter, NoDup_filter. assumption.
  - apply (encoders_distinct disc df [] df' encs); [exact LE|constructor].
Qed.
Theorem C95_text_feature_fails : forall sl dt df cls features discrete D c col, set_listing sl -> typed dt df -> NoDup (cls :: features) -> incl discrete (dkeys df) ->
  generate_dataset sl dt df (cls :: features) cls discrete = Ok D -> dget c df = Some col -> c <> cls -> dt c = DObject ->
  forall bb argsort normal rnd hall instance size X2E idx s, instance <> [] -> lore_neighborhood bb argsort cls D normal rnd hall instance size X2E idx <> Ok s.
Proof.
  intros sl dt df cls features discrete D c col SL T N IN H Dc Nc TO bb argsort normal rnd hall instance size X2E idx s NI. assert (W := generated_dataset _ _ _ _ _ _ _ SL T N H).
  destruct (generate_inv _ _ _ SL T H) as (target & tmp & disc & cont & df' & encs & y & Ct & _ & S & ND & _ & LE & _ & ED).
  assert (Kc : In cls (dkeys df)) by (eapply dget_Some_key; eassumption). destruct (@generate_good sl dt df cls _ discrete disc cont SL T IN Kc S) as (_ & G & M).
  assert (ID : In c disc) by (apply M; right; right; split; [eapply dget_Some_key; eassumption|assumption]).
  assert (EF := LE). apply encode_fold in EF; [|split; assumption]. destruct EF as (_ & _ & EF). destruct (EF c col ID Dc) as (u & codes & U & _ & _ & DE).
  apply (C95_text_encoder_fails bb argsort cls features D normal rnd hall instance size X2E idx c u W NI Nc); [rewrite ED; exact DE|].
  intros q I. destruct (G c ID) as (col' & D' & Un). rewrite Dc in D'. injection D' as <-. destruct (uniform_unique Un) as (u' & U' & _ & IU & _). rewrite U in U'. injection U' as <-. apply IU in I.
  destruct (T c col (dget_In _ _ Dc)) as (_ & TV). specialize (TV _ I). rewrite TO in TV. destruct TV as (st & X). discriminate.
Qed.
(** the labels are those before truncation and clamping, the outcomes those after: although the labels of the neighbours are of both classes,
    all the outcomes may be the same *)
Definition fx_bb (z : list Qc) : BinNums.Z := if qleb (qc 5 2) (nth 0 z 0) then 1%Z else 0%Z.
Definition fx_ds : dataset := mkDs ["cls"; "a"; "b"] [CStr "no"; CStr "yes"] [("cls", "string"); ("a", "integer"); ("b", "double")] ["cls"] ["a"; "b"]
  [(0%nat, "a"); (1%nat, "b")] [("cls", [CStr "no"; CStr "yes"])] [] [].
Definition fx_X : list (list Qc) := [[1; 1]; [qz 3; qz 2]; [qz 3; qz 4]].
Definition fx_normal (i j : nat) : Qc := match i with O => qc 14 5 | _ => qz 9 end.
Definition fx_rnd (run gen : nat) : ea_draws :=
  mkE (fun i => i) (fun i => 1) (fun _ => 0%nat) (fun _ => 0%nat) (fun i => 0) (fun i j => match i, j with 1%nat, 0%nat | 2%nat, 1%nat | 3%nat, _ => 0 | _, _ => 1 end) (fun i j => match i, j with 3%nat, 1%nat => 5%nat | _, O => 3%nat | _, _ => 1%nat end).
Definition fx_run := lore_neighborhood fx_bb (fun l => seq 0 (List.length l)) "cls" fx_ds fx_normal fx_rnd lx_hall [1; 1] 12 fx_X 0.
Lemma fx_fit : exists s, fx_run = Ok s /\ l_y_decoded s = [CStr "no"; CStr "no"; CStr "no"; CStr "no"; CStr "yes"; CStr "yes"; CStr "yes"; CNum 0] /\
  dget "a" (l_X s) = Some (map CNum [1; 1; 1; 1; qz 2; qz 2; qz 2; 1]) /\ dget "b" (l_X s) = Some (map CNum [1; qz 2; 1; 1; 1; qz 4; 1; 1]) /\ l_y s = repeat 0%Z 8.
Proof. eexists. split; [vm_compute; reflexivity|]. split; [vm_compute; repeat f_equal; apply Qc_is_canon; reflexivity|]. split; [qex|]. split; [qex|]. reflexivity. Qed.
Theorem C95_outcomes_of_labels_refuted : ~ forall bb argsort cls features ds normal rnd hall instance size X2E idx s, lore_dataset cls features ds -> instance <> [] ->
  lore_neighborhood bb argsort cls ds normal rnd hall instance size X2E idx = Ok s ->
  (exists a b, In a (l_y s) /\ In b (l_y s) /\ a <> b).
Proof.
  intro A. destruct fx_fit as (s & E & _ & _ & _ & Y). assert (W : lore_dataset "cls" ["a"; "b"] fx_ds) by (split; [reflexivity|]; cbn; splits; repeat constructor; cbn; intuition discriminate).
  assert (NI : [1; 1] <> @nil Qc) by discriminate. destruct (A _ _ _ _ _ _ _ _ _ _ _ _ _ W NI E) as (a & b & Ia & Ib & Ne).
  rewrite Y in Ia, Ib. apply repeat_spec in Ia. apply repeat_spec in Ib. congruence.
Qed.
Example C95_instance : lore_dataset "cls" ["a"; "b"] fx_ds /\ (forall c, In c ["a"; "b"] -> dget c (ds_encoders fx_ds) = None) /\ exists s, fx_run = Ok s.
Proof. split; [split; [reflexivity|]; cbn; splits; repeat constructor; cbn; intuition discriminate|]. split; [intros c [<-|[<-|[]]]; reflexivity|]. destruct fx_fit as (s & E & _). exists s. assumption. Qed.
Print Assumptions C95_decoded. Print Assumptions C95_fit. Print Assumptions C95_instance_outcome. Print Assumptions C95_text_encoder_fails. Print Assumptions C95_text_feature_fails. Print Assumptions C95_outcomes_of_labels_refuted.
Example C95_text_instance : exists D, set_listing (nodup string_dec) /\ typed ex_types (ex_basket 0 1) /\ NoDup ["rebounds"; "pos"] /\ incl [] (dkeys (ex_basket 0 1)) /\
  generate_dataset (nodup string_dec) ex_types (ex_basket 0 1) ["rebounds"; "pos"] "rebounds" [] = Ok D /\ "pos" <> "rebounds" /\ ex_types "pos" = DObject.
Proof. eexists. splits; [intro l; apply Permutation_refl|apply ex_basket_ok|repeat constructor; cbn; intuition discriminate|intros x []|vm_compute; reflexivity|discriminate|reflexivity]. Qed.
