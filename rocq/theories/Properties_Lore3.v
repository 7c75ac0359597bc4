(** * Properties C96-C98: random rows, neighborhoods made of real and random rows, value generators *)
From Verif Require Import Prelude M_Fuzzy M_Discretize M_Rule M_FDT M_ID3 M_Neighborhood M_Sampling M_Genetic M_Utils M_Lore.
From Verif Require Import P_FuzzyVar P_Metrics P_Factual P_Counterfactual P_Neighborhood2 P_Sampling P_Genetic P_Genetic2 P_Utils P_Utils2 P_Utils3 P_Utils4 P_Lore P_Lore2 P_Lore3 P_Lore4.
From Verif Require Import S_Utils S_Genetic S_Lore S_Lore2 S_Lore3.
From Verif Require Import P_Neighborhood3 Properties_Genetic.
From Verif Require Import Properties_Utils2 Properties_Utils3 Properties_Lore Properties_Lore2.
Unset Implicit Arguments.
Open Scope string_scope. Open Scope list_scope. Open Scope Qc_scope.

(** ** C96 *)
(** the given rows first, as they are, then [size] new ones as wide, made of drawn values *)
Theorem C96_rows : forall cls choice normal X columns discrete continuous ftype size uniform Y, NoDup columns ->
  generate_random_data cls choice normal X columns discrete continuous ftype size uniform = Ok Y ->
  In cls columns /\ exists new, Y = X ++ new /\ List.length new = size /\ (forall row, In row Y -> List.length row = (List.length columns - 1)%nat) /\
    forall row i c, In row new -> nth_error (filter (fun c => negb (eqb c cls)) columns) i = Some c -> exists w, nth_error row i = Some w /\ drawn_value X discrete continuous ftype row i c w.
Proof.
  intros cls choice normal X columns discrete continuous ftype size uniform Y N H. split; [|eapply random_rows; eassumption].
  rewrite random_eq in H. destruct (list_remove cls columns) as [cols|] eqn:R; [|discriminate]. apply list_remove_filter in R; [|assumption]. apply R.
Qed.
(** asking for the observed frequencies changes nothing: they are not used *)
Theorem C96_uniform_ignored : forall cls choice normal X columns discrete continuous ftype size,
  generate_random_data cls choice normal X columns discrete continuous ftype size false = generate_random_data cls choice normal X columns discrete continuous ftype size true.
Proof. intros. apply uniform_irrelevant. Qed.
(** it succeeds on rows of one width if the class is a column, the types are known and the first feature is in one of the lists *)
Theorem C96_total : forall cls choice normal X columns discrete continuous ftype size uniform, In cls columns -> NoDup columns -> X <> [] ->
  (forall row, In row X -> List.length row = (List.length columns - 1)%nat) -> (forall c, In c columns -> c <> cls -> exists t, dget c ftype = Some t) ->
  (exists c, nth_error (filter (fun c => negb (eqb c cls)) columns) 0 = Some c /\ (In c discrete \/ In c continuous)) ->
  exists Y, generate_random_data cls choice normal X columns discrete continuous ftype size uniform = Ok Y.
Proof.
  intros cls choice normal X columns discrete continuous ftype size uniform I N NX W T (c0 & C0 & L0). rewrite random_eq.
  destruct (@list_remove_total cls columns I) as (cols & R). rewrite R. cbn [bind]. assert (R' := R). apply list_remove_filter in R'; [|assumption]. destruct R' as (_ & R'). rewrite <- R' in C0.
  assert (LC : List.length cols = (List.length columns - 1)%nat).
  { clear - R. revert cols R. induction columns as [|y l IH]; intros cols R; [discriminate|]. cbn in R. destruct (eqb y cls); [injection R as <-; cbn; lia|]. destruct (list_remove cls l) as [r|] eqn:E; [|discriminate]. cbn in R. injection R as <-. cbn. specialize (IH r eq_refl). destruct l; [discriminate|]. cbn in *. lia. }
  assert (ST : forall l k cs last, (forall j c, nth_error l j = Some c -> nth_error cols (k + j) = Some c) -> (k = 0%nat \/ last <> None) -> exists st, foldM (random_step choice normal X discrete continuous ftype size uniform) (cs, last) (zip (seq k (List.length l)) l) = Ok st).
  { induction l as [|c l IH]; intros k cs last A B; [exists (cs, last); reflexivity|]. cbn [List.length seq zip foldM]. assert (Ck := A 0%nat c eq_refl). rewrite Nat.add_0_r in Ck.
    assert (Bk : (k < List.length cols)%nat) by (apply nth_error_Some; congruence).
    assert (Q : exists values, qcolumn X k = Ok values /\ values <> []).
    { destruct (mapM_total (fun row => ret_opt IndexError (nth_error row k)) X) as (values & V). { intros row Ir. destruct (nth_error row k) as [v|] eqn:E; [exists v; reflexivity|]. apply nth_error_None in E. rewrite (W row Ir) in E. lia. }
      exists values. split; [exact V|]. intros ->. apply mapM_length in V. destruct X; [contradiction|discriminate]. }
    destruct Q as (values & Q & NV).
    assert (S1 : exists st, random_step choice normal X discrete continuous ftype size uniform (cs, last) (k, c) = Ok st /\ snd st <> None).
    { unfold random_step. cbn [fst snd]. rewrite Q. cbn [bind]. cbv zeta.
      assert (NU : qunique values <> []). { destruct values as [|v vs]; [contradiction|]. intro E. assert (Iv : In v (qunique (v :: vs))) by (apply qunique_In; left; reflexivity). rewrite E in Iv. destruct Iv. }
      assert (NC : forall b, (b = true) -> exists l, np_choice (choice k) (qunique values) size b = Ok l).
      { intros b ->. unfold np_choice. cbn [negb andb]. apply mapM_total. intros j _. destruct (nth_error (qunique values) (choice k j mod List.length (qunique values))) as [v|] eqn:E; [exists v; reflexivity|]. apply nth_error_None in E. exfalso. assert (M := Nat.mod_upper_bound (choice k j) (List.length (qunique values))). destruct (qunique values); [contradiction|]. cbn [List.length] in *. lia. }
      destruct (T c) as (t & Tc); [rewrite R' in Ck; apply nth_error_In in Ck; apply not_class in Ck; apply Ck|rewrite R' in Ck; apply nth_error_In in Ck; apply not_class in Ck; apply Ck|].
      assert (V : exists vs, (if memb c discrete then
             if uniform then np_choice (choice k) (qunique values) size true
             else np_choice (choice k) (qunique values) size (negb (Nat.eqb (List.length (map (fun val => qn (List.length (filter (qeqb val) values)) / qn (List.length values)) (qunique values))) 0))
           else if memb c continuous then
             match variance values with
             | Some v => if qleb v 0 then do v0 <- lget values 0; Ok (repeat v0 size) else Ok (map (normal k) (seq 0 size))
             | None => Ok (map (normal k) (seq 0 size))
             end
           else ret_opt NameError last) = Ok vs).
      { destruct (memb c discrete) eqn:MD.
        - destruct uniform; apply NC; [reflexivity|]. rewrite map_length. destruct (qunique values); [contradiction|reflexivity].
        - destruct (memb c continuous) eqn:MC.
          + destruct (variance values); [|eexists; reflexivity]. destruct (qleb q 0); [|eexists; reflexivity]. destruct values; [contradiction|]. eexists. reflexivity.
          + destruct last as [vs|]; [exists vs; reflexivity|]. destruct B as [->|B]; [|contradiction]. rewrite C0 in Ck. injection Ck as ->. apply (proj1 (@memb_not_In _ _ c discrete)) in MD. apply (proj1 (@memb_not_In _ _ c continuous)) in MC. tauto. }
      destruct V as (vs & ->). cbn [bind]. rewrite Tc. cbn [ret_opt bind]. eexists. split; [reflexivity|]. cbn. discriminate. }
    destruct S1 as ((cs' & last') & E & NL). change (zip (k :: seq (S k) (List.length l)) (c :: l)) with ((k, c) :: zip (seq (S k) (List.length l)) l). cbn [foldM]. rewrite E. cbn [bind]. apply IH; [|right; assumption]. intros j c' E'. specialize (A (S j) c' E'). rewrite Nat.add_succ_r in A. exact A. }
  destruct (ST cols 0%nat [] None) as (st & E); [intros j c E; exact E|left; reflexivity|]. change (zip (seq 0 (List.length cols)) cols) with (enumerate cols) in E. rewrite E. cbn [bind].
  destruct (Nat.eqb_spec (List.length cols) 0) as [Z|_]; [destruct cols; discriminate|].
  assert (FB : forallb (fun row : list Qc => Nat.eqb (List.length row) (List.length cols)) X = true) by (apply forallb_forall; intros row Ir; apply Nat.eqb_eq; rewrite (W row Ir); congruence). rewrite FB. eexists. reflexivity.
Qed.
(** the class is not a column, there is no feature, or the first one is in neither list *)
Theorem C96_rejects : forall cls choice normal X columns discrete continuous ftype size uniform, NoDup columns ->
  (~ In cls columns -> generate_random_data cls choice normal X columns discrete continuous ftype size uniform = Err ValueError) /\
  generate_random_data cls choice normal X [cls] discrete continuous ftype size uniform = Err ValueError /\
  (forall c, nth_error (filter (fun c => negb (eqb c cls)) columns) 0 = Some c -> ~ In c discrete -> ~ In c continuous -> In cls columns -> (forall row, In row X -> row <> []) ->
     generate_random_data cls choice normal X columns discrete continuous ftype size uniform = Err NameError).
Proof.
  intros cls choice normal X columns discrete continuous ftype size uniform ND. split; [|split].
  - intro N. rewrite random_eq. assert (R : list_remove cls columns = Err ValueError); [|rewrite R; reflexivity]. clear - N. induction columns as [|y l IH]; [reflexivity|]. cbn [list_remove]. destruct (eqb y cls) eqn:E; [apply (proj1 (@eqb_eq _ _ y cls)) in E; subst; exfalso; apply N; left; reflexivity|]. rewrite IH; [reflexivity|]. intro; apply N; right; assumption.
  - rewrite random_eq. cbn [list_remove]. rewrite eqb_refl. reflexivity.
  - intros c C0 D1 D2 I W. rewrite random_eq. destruct (@list_remove_total cls columns I) as (cols & R). rewrite R. cbn [bind]. apply list_remove_filter in R; [|assumption]. destruct R as (_ & R). rewrite <- R in C0. destruct cols as [|c' cols]; [discriminate|]. injection C0 as ->.
    unfold enumerate. cbn [List.length seq]. match goal with |- context [zip (?k :: ?r) (?c :: ?l)] => change (zip (k :: r) (c :: l)) with ((k, c) :: zip r l) end. cbn [foldM]. unfold random_step at 1. cbn [fst snd]. destruct (mapM_total (fun row => ret_opt IndexError (nth_error row 0%nat)) X) as (values & V); [intros row Ir; specialize (W row Ir); destruct row as [|q row]; [contradiction|exists q; reflexivity]|].
    unfold qcolumn. rewrite V. cbn [bind]. cbv zeta. rewrite (proj2 (@memb_not_In _ _ c discrete) D1), (proj2 (@memb_not_In _ _ c continuous) D2). reflexivity.
Qed.
Definition rx_types : dict string string := [("cls", "string"); ("a", "integer"); ("b", "double"); ("d", "string")].
Definition rx_X : list (list Qc) := [[1; qz 2; 0]; [qz 3; qz 2; 1]; [qz 3; qz 2; qz 2]].
Lemma C96_ex : generate_random_data "cls" (fun i j => (i + j)%nat) (fun i j => qc 5 2) rx_X ["cls"; "a"; "b"; "d"] ["cls"; "d"] ["a"; "b"] rx_types 2 true = Ok (rx_X ++ [[qz 2; qz 2; qz 2]; [qz 2; qz 2; 0]]).
Proof. qex. Qed.
Example C96_instance : NoDup ["cls"; "a"; "b"; "d"] /\ In "cls" ["cls"; "a"; "b"; "d"] /\ rx_X <> [] /\ (forall row, In row rx_X -> List.length row = 3%nat) /\
  (forall c, In c ["cls"; "a"; "b"; "d"] -> c <> "cls" -> exists t, dget c rx_types = Some t) /\ (exists c, nth_error (filter (fun c => negb (eqb c "cls")) ["cls"; "a"; "b"; "d"]) 0 = Some c /\ (In c ["cls"; "d"] \/ In c ["a"; "b"])).
Proof.
  splits; [repeat constructor; cbn; intuition discriminate|left; reflexivity|discriminate| | |exists "a"; split; [reflexivity|right; left; reflexivity]].
  - intros row [<-|[<-|[<-|[]]]]; reflexivity.
  - intros c [<-|[<-|[<-|[<-|[]]]]] N; try contradiction; eexists; reflexivity.
Qed.
Print Assumptions C96_rows. Print Assumptions C96_uniform_ignored. Print Assumptions C96_total. Print Assumptions C96_rejects.

(** ** C97 *)
Lemma trunc_unique a b : truncated (qz a) b -> a = b.
Proof.
  intros (T1 & T2). destruct (Qclt_le_dec (qz a) 0) as [Neg|Pos]; [destruct (T2 Neg) as (A1 & A2)|destruct (T1 Pos) as (A1 & A2)]; rewrite ?qz_lt, ?qz_le in *; lia.
Qed.
Lemma labelled_all bb cls features ds Z df : lore_dataset cls features ds -> In cls (ds_discrete ds) -> explain_frame bb ds Z = Ok df -> labelled bb cls ds df Z.
Proof.
  intros (C & N & ND & _ & _) I H. unfold explain_frame in H. rewrite C in H, N. destruct (@C75_class_first _ _ _ _ _ _ _ _ N ND I H) as (col & classes & D & DE & V & _).
  exists classes. split; [assumption|]. intros r z Zr. destruct (V r (bb z)) as (P & label & L1 & L2); [rewrite nth_error_map, Zr; reflexivity|]. split; [assumption|]. exists label. split; [assumption|]. unfold value_at. rewrite D. assumption.
Qed.
Section Copied.
  Variables (bb : list Qc -> Z) (cls : string) (features : list string) (ds : dataset) (dfZ dfe : frame) (n : nat) (e : encoders).
  Hypothesis W : lore_dataset cls features ds.
  Hypothesis I : In cls (ds_discrete ds).
  Hypothesis R : rectangular n dfZ.
  Hypothesis K : filter (fun c => negb (eqb c cls)) (dkeys dfZ) = features.
  Hypothesis LE : label_encode dfZ (ds_discrete ds) (Some (ds_encoders ds)) = Ok (dfe, e).
  Lemma matrix_rows : List.length (matrix_without cls dfe) = n.
  Proof.
    destruct W as (_ & _ & ND & _). rewrite matrix_length. apply frame_length_rect; [exact (encode_with_rect _ _ _ _ _ _ ND R LE)|]. intro E0. destruct (encode_with _ _ _ _ _ ND LE) as (_ & _ & D). destruct (D cls I) as (u0 & c0 & d0 & _ & _ & _ & X). rewrite E0 in X. discriminate.
  Qed.
  Lemma copied_rows sel rows Z extra df : mapM (lget (matrix_without cls dfe)) sel = Ok rows -> mapM numbers rows = Ok Z -> explain_frame bb ds (Z ++ extra) = Ok df ->
    List.length Z = List.length sel /\ forall r i, nth_error sel r = Some i -> (i < n)%nat /\ exists z, nth_error Z r = Some z /\ List.length z = List.length features /\
      forall j c, nth_error features j = Some c -> exists v, value_at dfZ c i = Some v /\ copied ds df r z j c v.
  Proof.
    intros S NU EX. assert (MR := matrix_rows). destruct W as (C & N & ND & _). assert (RE := encode_with_rect _ _ _ _ _ _ ND R LE). destruct (encode_with _ _ _ _ _ ND LE) as (KE & O & D).
    assert (L1 := mapM_length _ _ S). assert (L2 := mapM_length _ _ NU). split; [congruence|]. intros r i Sr.
    apply mapM_nth_error in S. destruct S as (_ & S). destruct (S r i Sr) as (row & E & Nr). unfold lget in E. destruct (nth_error (matrix_without cls dfe) i) as [row'|] eqn:Ni; [|discriminate]. cbn in E. assert (row' = row) by congruence. subst row'.
    apply mapM_nth_error in NU. destruct NU as (_ & NU). destruct (NU r row Nr) as (z & Ez & Zr). split; [rewrite <- MR; apply nth_error_Some; congruence|]. exists z. split; [assumption|].
    assert (FK : filter (fun c => negb (eqb c cls)) (dkeys dfe) = features) by (rewrite KE; assumption).
    assert (MV : forall q, option_map CNum (nth_error z q) = match nth_error features q with Some c => value_at dfe c i | None => None end) by (intro q; rewrite <- (numbers_nth _ _ Ez), (matrix_value cls i q RE Ni), FK; reflexivity).
    assert (VE : forall j c, nth_error features j = Some c -> exists col w, dget c dfe = Some col /\ nth_error col i = Some w).
    { intros j c J. assert (Ic : In c (dkeys dfe)) by (apply nth_error_In in J; rewrite <- FK in J; apply not_class in J; apply J). destruct (dget_ex _ _ Ic) as (col & Dc). destruct RE as (_ & RE). assert (Lc := RE c col (dget_In _ _ Dc)).
      destruct (nth_error col i) as [w|] eqn:Wi; [exists col, w; split; assumption|]. apply nth_error_None in Wi. assert (i < List.length (matrix_without cls dfe))%nat by (apply nth_error_Some; congruence). lia. }
    split.
    { destruct (le_lt_dec (List.length features) (List.length z)) as [A|A].
      - destruct (le_lt_dec (List.length z) (List.length features)) as [B|B]; [lia|]. exfalso. specialize (MV (List.length features)). destruct (nth_error features (List.length features)) eqn:Q; [assert (List.length features < List.length features)%nat by (apply nth_error_Some; congruence); lia|]. destruct (nth_error z (List.length features)) eqn:Q'; [discriminate|]. apply nth_error_None in Q'. lia.
      - exfalso. specialize (MV (List.length z)). assert (Q' : nth_error z (List.length z) = None) by (apply nth_error_None; apply le_n). rewrite Q' in MV. destruct (nth_error features (List.length z)) as [c|] eqn:Q; [|apply nth_error_None in Q; lia]. destruct (VE _ _ Q) as (col & w & Dc & Wi). unfold value_at in MV. rewrite Dc, Wi in MV. discriminate. }
    intros j c J. destruct (VE j c J) as (ecol & w & De & Wi). specialize (MV j). rewrite J in MV. unfold value_at in MV. rewrite De, Wi in MV. destruct (nth_error z j) as [q|] eqn:Zj; [|discriminate]. cbn in MV. assert (w = CNum q) by congruence. subst w.
    unfold explain_frame in EX. rewrite C in EX, N. destruct (@C75_columns _ _ _ _ _ _ _ N ND EX) as (LY & KD & G). destruct (G (Datatypes.S j) c J) as (col & t & Dc & Tc & Lc & V).
    assert (Br : (r < List.length (map bb (Z ++ extra)))%nat). { rewrite map_length, app_length. assert (r < List.length Z)%nat by (apply nth_error_Some; congruence). lia. }
    destruct (V r Br) as (q' & S' & V1 & V2 & V3). cbn [source] in S'. rewrite nth_error_app1 in S' by (apply nth_error_Some; congruence). rewrite Zr, Zj in S'. injection S' as <-.
    destruct (in_dec string_dec c (ds_discrete ds)) as [Id|Id].
    - destruct (D c Id) as (u & zcol & codes & Du & Dz & TR & De'). rewrite De in De'. injection De' as <-.
      assert (Bi : (i < List.length zcol)%nat). { rewrite <- (transform_length _ _ TR). apply nth_error_Some. congruence. } destruct (nth_error zcol i) as [v|] eqn:Vi; [|apply nth_error_None in Vi; lia]. destruct (transform_value _ _ _ _ _ TR Vi) as (k & Nk & Ck). rewrite Wi in Ck. injection Ck as ->.
      exists v. split; [unfold value_at; rewrite Dz; assumption|]. exists (qn k). split; [assumption|]. split; [|contradiction]. intros _. split; [exists u, k; splits; try assumption; reflexivity|].
      destruct (V1 Id) as (u' & k' & Du' & _ & T' & Vc). rewrite Du in Du'. injection Du' as <-. unfold qn in T'. apply trunc_unique in T'. apply Nat2Z.inj in T'. subst k'. unfold value_at. rewrite Dc, Vc. assumption.
    - exists (CNum q). split; [unfold value_at; rewrite <- (O c Id), De; assumption|]. exists q. split; [assumption|]. split; [contradiction|]. intros _. split; [reflexivity|]. exists t.
      destruct (string_dec t "integer") as [Ti|Ti].
      + destruct (V2 Id Ti) as (m & Tm & Vc). exists (qz m). split; [assumption|]. split; [split; [intros _; exists m; split; [assumption|reflexivity]|contradiction]|]. unfold value_at. rewrite Dc. assumption.
      + exists q. split; [assumption|]. split; [split; [contradiction|reflexivity]|]. unfold value_at. rewrite Dc. exact (V3 Id Ti).
  Qed.
End Copied.
Section Encoded.
  Variables (bb : list Qc -> Z) (cls : string) (features : list string) (ds : dataset) (dfZ dfe : frame) (n : nat) (e : encoders).
  Hypothesis W : lore_dataset cls features ds.
  Hypothesis I : In cls (ds_discrete ds).
  Hypothesis R : rectangular n dfZ.
  Hypothesis K : filter (fun c => negb (eqb c cls)) (dkeys dfZ) = features.
  Hypothesis LE : label_encode dfZ (ds_discrete ds) (Some (ds_encoders ds)) = Ok (dfe, e).
  Lemma matrix_row i row : nth_error (matrix_without cls dfe) i = Some row -> List.length row = List.length features /\
    forall j c, nth_error features j = Some c -> exists v w, value_at dfZ c i = Some v /\ nth_error row j = Some w /\
      (In c (ds_discrete ds) -> exists classes k, dget c (ds_encoders ds) = Some classes /\ nth_error classes k = Some v /\ w = CNum (qn k)) /\ (~ In c (ds_discrete ds) -> w = v).
  Proof.
    intro Ni. assert (MR := matrix_rows _ _ _ _ _ _ _ W I R LE). destruct W as (C & N & ND & _). assert (RE := encode_with_rect _ _ _ _ _ _ ND R LE). destruct (encode_with _ _ _ _ _ ND LE) as (KE & O & D).
    assert (FK : filter (fun c => negb (eqb c cls)) (dkeys dfe) = features) by (rewrite KE; assumption). split.
    - unfold matrix_without in Ni. rewrite nth_error_map in Ni. destruct (nth_error _ i) in Ni; [|discriminate]. cbn in Ni. injection Ni as <-. rewrite map_length. rewrite <- FK. rewrite <- keys_filter. unfold dkeys. rewrite map_length. reflexivity.
    - intros j c J. assert (MV := matrix_value cls i j RE Ni). rewrite FK, J in MV.
      assert (Ic : In c (dkeys dfe)) by (apply nth_error_In in J; rewrite <- FK in J; apply not_class in J; apply J). destruct (dget_ex _ _ Ic) as (col & Dc). assert (Lc := proj2 RE c col (dget_In _ _ Dc)).
      assert (Bi : (i < List.length col)%nat). { rewrite Lc, <- MR. apply nth_error_Some. congruence. } destruct (nth_error col i) as [w|] eqn:Wi; [|apply nth_error_None in Wi; lia].
      unfold value_at in MV. rewrite Dc, Wi in MV. destruct (in_dec string_dec c (ds_discrete ds)) as [Id|Id].
      + destruct (D c Id) as (u & zcol & codes & Du & Dz & TR & De'). rewrite Dc in De'. injection De' as ->.
        assert (Bz : (i < List.length zcol)%nat) by (rewrite <- (transform_length _ _ TR); assumption). destruct (nth_error zcol i) as [v|] eqn:Vi; [|apply nth_error_None in Vi; lia]. destruct (transform_value _ _ _ _ _ TR Vi) as (k & Nk & Ck). rewrite Wi in Ck. injection Ck as ->.
        exists v, (CNum (qn k)). split; [unfold value_at; rewrite Dz; assumption|]. split; [assumption|]. split; [|contradiction]. intros _. exists u, k. splits; try assumption; reflexivity.
      + exists w, w. split; [unfold value_at; rewrite <- (O c Id), Dc; assumption|]. split; [assumption|]. split; [contradiction|reflexivity].
  Qed.
  Lemma encoded_array A : mapM numbers (matrix_without cls dfe) = Ok A -> encoded ds features dfZ n A.
  Proof.
    intro H. assert (MR := matrix_rows _ _ _ _ _ _ _ W I R LE). split; [rewrite (mapM_length _ _ H); assumption|]. intros i z Zi. apply mapM_ok in H. destruct (Forall2_nth_r H _ Zi) as (row & Ni & E). destruct (matrix_row _ _ Ni) as (L & V).
    apply numbers_spec in E. subst row. rewrite map_length in L. split; [assumption|]. intros j c J. destruct (V j c J) as (v & w & V1 & V2 & V3 & V4). rewrite nth_error_map in V2. destruct (nth_error z j) as [q|]; [|discriminate]. cbn in V2. assert (w = CNum q) by congruence. subst w.
    exists v, q. split; [assumption|]. split; [reflexivity|]. split; [intro Id; destruct (V3 Id) as (u & k & A1 & A2 & A3); exists u, k; splits; try assumption; congruence|]. intro Id. symmetry. exact (V4 Id).
  Qed.
  Lemma array_total : numeric_rest ds features dfZ -> exists A, mapM numbers (matrix_without cls dfe) = Ok A.
  Proof.
    intro NR. apply mapM_total. intros row Ir. apply In_nth_error in Ir. destruct Ir as (i & Ni). destruct (matrix_row _ _ Ni) as (L & V). unfold numbers. apply mapM_total. intros w Iw. apply In_nth_error in Iw. destruct Iw as (j & Wj).
    assert (Bj : (j < List.length features)%nat) by (rewrite <- L; apply nth_error_Some; congruence). destruct (nth_error features j) as [c|] eqn:J; [|apply nth_error_None in J; lia]. destruct (V j c J) as (v & w' & V1 & V2 & V3 & V4). rewrite Wj in V2. injection V2 as <-.
    destruct (in_dec string_dec c (ds_discrete ds)) as [Id|Id]; [destruct (V3 Id) as (u & k & _ & _ & ->); eexists; reflexivity|]. rewrite (V4 Id). destruct (NR c i v (nth_error_In _ _ J) Id V1) as (q & ->). eexists. reflexivity.
  Qed.
  Lemma array_rows A sel rows Z : mapM numbers (matrix_without cls dfe) = Ok A -> mapM (lget (matrix_without cls dfe)) sel = Ok rows -> mapM numbers rows = Ok Z -> (forall i, In i sel -> (i < n)%nat) /\ Z = map (fun i => nth i A []) sel.
  Proof.
    intros HA. revert rows Z. induction sel as [|i sel IH]; intros rows Z S H; [cbn in S; injection S as <-; cbn in H; injection H as <-; split; [intros i []|reflexivity]|].
    cbn [mapM] in S. unfold lget at 1 in S. destruct (nth_error (matrix_without cls dfe) i) as [row|] eqn:Ni; [|discriminate]. cbn [ret_opt bind] in S. destruct (mapM (lget (matrix_without cls dfe)) sel) as [rows'|] eqn:S'; [|discriminate]. cbn [bind] in S. injection S as <-.
    cbn [mapM] in H. destruct (numbers row) as [z|] eqn:E; [|discriminate]. cbn [bind] in H. destruct (mapM numbers rows') as [Z'|] eqn:H'; [|discriminate]. cbn [bind] in H. injection H as <-. destruct (IH _ _ eq_refl H') as (B & ->). split.
    - intros i' [<-|Ii]; [|auto]. rewrite <- (matrix_rows _ _ _ _ _ _ _ W I R LE). apply nth_error_Some. congruence.
    - cbn [map]. f_equal. apply mapM_nth_error in HA. destruct HA as (_ & HA). destruct (HA i row Ni) as (z' & E' & Ai). rewrite (nth_error_nth _ _ [] Ai). congruence.
  Qed.
  Lemma bb_array A i z : mapM numbers (matrix_without cls dfe) = Ok A -> nth_error A i = Some z -> bb_cells bb (nth i (matrix_without cls dfe) []) = bb z.
  Proof.
    intros HA Ai. apply mapM_ok in HA. destruct (Forall2_nth_r HA _ Ai) as (row & Ni & E). rewrite (nth_error_nth _ _ [] Ni). apply numbers_spec in E. subst row. unfold bb_cells. rewrite map_map, map_id. reflexivity.
  Qed.
End Encoded.
Lemma all_rows B (l : list B) : mapM (lget l) (seq 0 (List.length l)) = Ok l.
Proof.
  assert (G : forall (pre l : list B), mapM (lget (pre ++ l)) (seq (List.length pre) (List.length l)) = Ok l).
  { intros pre l0. revert pre. induction l0 as [|x l0 IH]; intro pre; [reflexivity|]. cbn [List.length seq mapM]. unfold lget at 1. rewrite nth_error_app2 by apply le_n. rewrite Nat.sub_diag. cbn [nth_error ret_opt bind].
    specialize (IH (pre ++ [x])). rewrite <- app_assoc, app_length, Nat.add_1_r in IH. cbn [app] in IH. rewrite IH. reflexivity. }
  exact (G [] l).
Qed.
(** every row of the table, in order: the array has its codes, the new table its values, with the outcome's label as class *)
Theorem C97_real_data : forall bb cls features ds dfZ n df Z, lore_dataset cls features ds -> In cls (ds_discrete ds) -> rectangular n dfZ ->
  filter (fun c => negb (eqb c cls)) (dkeys dfZ) = features -> real_data bb cls ds dfZ = Ok (df, Z) ->
  encoded ds features dfZ n Z /\ dkeys df = cls :: features /\ labelled bb cls ds df Z /\
  forall r z, nth_error Z r = Some z -> forall j c, nth_error features j = Some c -> exists v, value_at dfZ c r = Some v /\ copied ds df r z j c v.
Proof.
  intros bb cls features ds dfZ n df Z W I R K H. unfold real_data in H. destruct (label_encode dfZ (ds_discrete ds) (Some (ds_encoders ds))) as [(dfe & e)|] eqn:LE; [|discriminate]. cbn [bind fst] in H.
  destruct (mapM numbers (matrix_without cls dfe)) as [Z'|] eqn:NU; [|discriminate]. cbn [bind] in H. destruct (explain_frame bb ds Z') as [df'|] eqn:EX; [|discriminate]. cbn [bind] in H. assert (Z' = Z /\ df' = df) as (-> & ->) by (split; congruence). clear H.
  split; [eapply encoded_array; eassumption|]. split; [destruct W as (C & N & ND & _); rewrite <- C; eapply explain_rect; eassumption|]. split; [eapply labelled_all; eassumption|].
  intros r z Zr j c J. assert (EX' : explain_frame bb ds (Z ++ []) = Ok df) by (rewrite app_nil_r; assumption).
  destruct (copied_rows bb _ _ _ _ _ _ _ W I R K LE _ _ _ _ _ (all_rows _ (matrix_without cls dfe)) NU EX') as (L & P). rewrite seq_length in L.
  assert (B : (r < List.length Z)%nat) by (apply nth_error_Some; congruence). destruct (P r r) as (_ & z' & Zr' & _ & V).
  { rewrite nth_error_nth' with (d := 0%nat) by (rewrite seq_length; lia). rewrite seq_nth by lia. reflexivity. }
  rewrite Zr in Zr'. injection Zr' as <-. exact (V j c J).
Qed.
Lemma diffoutcome_mix argsort bb distance cls features ds dfZ dfe e n x sel A : lore_dataset cls features ds -> In cls (ds_discrete ds) -> sorts argsort -> rectangular n dfZ ->
  label_encode dfZ (ds_discrete ds) (Some (ds_encoders ds)) = Ok (dfe, e) -> mapM numbers (matrix_without cls dfe) = Ok A ->
  get_closest_diffoutcome argsort distance (bb_cells bb) dfZ x (ds_discrete ds) cls (ds_encoders ds) 100 (qc 1 10) = Ok sel ->
  exists dist, List.length dist = n /\ (forall i z, nth_error (records dfZ) i = Some z -> distance x z = Ok (nth i dist None)) /\
    nearest_mix dist (fun i => Z.eqb (bb (nth i A [])) 0) n 100 10 (qc 1 10) sel.
Proof.
  intros W I SO R LE HA H. assert (MR := matrix_rows _ _ _ _ _ _ _ W I R LE). assert (EE : e = ds_encoders ds). { unfold label_encode in LE. match type of LE with bind ?r _ = _ => destruct r; [|discriminate] end. cbn [bind] in LE. congruence. } subst e.
  assert (NE : dfZ <> []). { destruct W as (_ & _ & ND & _). intros ->. destruct (encode_with _ _ _ _ _ ND LE) as (_ & _ & D). destruct (D cls I) as (u0 & c0 & d0 & _ & X & _). discriminate. }
  assert (FL := frame_length_rect R NE).
  assert (D : exists dist, List.length dist = n /\ (forall i z, nth_error (records dfZ) i = Some z -> distance x z = Ok (nth i dist None))).
  { unfold get_closest_diffoutcome in H. rewrite LE in H. cbn [bind fst] in H. match type of H with bind ?r _ = _ => destruct r as [rows|] eqn:E; [|discriminate] end. clear H.
    exists (map (fun r : nat * fl * bool => snd (fst r)) rows). assert (L := mapM_length _ _ E).
    assert (LZ : List.length (zip (records dfZ) (matrix_without cls dfe)) = n) by (unfold zip; rewrite combine_length, records_length, MR, FL; apply Nat.min_id).
    assert (LR : List.length (enumerate (zip (records dfZ) (matrix_without cls dfe))) = n) by (unfold enumerate, zip at 1; rewrite combine_length, seq_length, LZ; apply Nat.min_id).
    split; [rewrite map_length; congruence|]. intros i z Zi. assert (Bi : (i < n)%nat). { rewrite <- FL, <- records_length. apply nth_error_Some. congruence. }
    destruct (nth_error (matrix_without cls dfe) i) as [z1|] eqn:Mi; [|apply nth_error_None in Mi; lia].
    apply mapM_nth_error in E. destruct E as (_ & E). destruct (E i (i, (z, z1))) as (y & Y & Ni).
    { apply enumerate_nth. rewrite (@zip_nth _ _ (records dfZ) (matrix_without cls dfe) i), Zi, Mi; reflexivity. }
    destruct (distance x z) as [d|]; [|discriminate]. cbn [bind] in Y. assert (EY : y = (i, d, Z.eqb (bb_cells bb z1) 0)) by congruence. subst y. f_equal. symmetry. apply nth_error_nth. rewrite nth_error_map, Ni. reflexivity. }
  destruct D as (dist & LD & D). exists dist. split; [assumption|]. split; [assumption|].
  assert (P : 0 < qc 1 10) by reflexivity. assert (Q : qc 1 10 <= 1) by discriminate.
  destruct (@C85_answer argsort distance (bb_cells bb) n dfZ x (ds_discrete ds) cls (ds_encoders ds) 100 (qc 1 10) dfe dist SO R NE P Q LE LD D) as (all & zeros & others & m & N1 & N2 & N3 & (M1 & M2) & A1 & A2 & A3 & A4).
  assert (EM : m = 10%nat). { assert (E100 : qn 100 * qc 1 10 = qn 10) by (apply Qc_is_canon; reflexivity). rewrite E100 in M1, M2. rewrite Qcplus_comm, <- (qn_S m) in M2. apply qn_le in M1. apply qn_lt in M2. lia. } subst m.
  assert (ZE : forall b : bool -> bool, filter (fun i => b (Z.eqb (bb_cells bb (nth i (matrix_without cls dfe) [])) 0)) (seq 0 n) = filter (fun i => b (Z.eqb (bb (nth i A [])) 0)) (seq 0 n)).
  { intro b. apply filter_ext_in. intros i Ii. apply in_seq in Ii. destruct (nth_error A i) as [z|] eqn:Ai; [|apply nth_error_None in Ai; rewrite (mapM_length _ _ HA), MR in Ai; lia]. rewrite (bb_array bb _ _ _ _ _ HA Ai), (nth_error_nth _ _ [] Ai). reflexivity. }
  exists all, zeros, others. split; [assumption|]. split; [rewrite <- (ZE (fun b => b)); assumption|]. split; [rewrite <- (ZE negb); assumption|].
  assert (NA : all <> []) by (intro E; rewrite (A1 E) in H; discriminate). split; [assumption|]. split; [|split].
  - intro T. specialize (A2 NA T). congruence.
  - intros T T'. specialize (A3 NA T T'). congruence.
  - intros T T'. specialize (A4 NA T T'). congruence.
Qed.
(** the rows chosen by get_closest_diffoutcome with k = 100 and ratio 1/10: the hundred nearest to the instance, with the outcomes balanced *)
Theorem C97_closed_real_data : forall bb argsort cls features ds dfZ n x df Z, lore_dataset cls features ds -> In cls (ds_discrete ds) -> sorts argsort -> rectangular n dfZ ->
  filter (fun c => negb (eqb c cls)) (dkeys dfZ) = features -> numeric_rest ds features dfZ -> closed_real_data bb argsort cls ds dfZ x = Ok (df, Z) ->
  dkeys df = cls :: features /\ labelled bb cls ds df Z /\
  exists A sel dfx x0 dist, encoded ds features dfZ n A /\ explain_frame bb ds [x] = Ok dfx /\ nth_error (records dfx) 0 = Some x0 /\
    List.length dist = n /\ (forall i z, nth_error (records dfZ) i = Some z -> lore_distance cls ds (ds_discrete ds) x0 z = Ok (nth i dist None)) /\
    nearest_mix dist (fun i => Z.eqb (bb (nth i A [])) 0) n 100 10 (qc 1 10) sel /\
    Z = map (fun i => nth i A []) sel /\
    forall r i z j c, nth_error sel r = Some i -> nth_error Z r = Some z -> nth_error features j = Some c -> exists v, value_at dfZ c i = Some v /\ copied ds df r z j c v.
Proof.
  intros bb argsort cls features ds dfZ n x df Z W I SO R K NR H. unfold closed_real_data in H. destruct (explain_frame bb ds [x]) as [dfx|] eqn:EXx; [|discriminate]. cbn [bind] in H. destruct (lget (records dfx) 0) as [x0|] eqn:X0; [|discriminate]. cbn [bind] in H.
  match type of H with bind ?r _ = _ => destruct r as [sel|] eqn:S; [|discriminate] end. cbn [bind] in H.
  destruct (label_encode dfZ (ds_discrete ds) (Some (ds_encoders ds))) as [(dfe & e)|] eqn:LE; [|discriminate]. cbn [bind fst] in H.
  destruct (mapM (lget (matrix_without cls dfe)) sel) as [rows|] eqn:MS; [|discriminate]. cbn [bind] in H.
  destruct (mapM numbers rows) as [Z'|] eqn:NU; [|discriminate]. cbn [bind] in H. destruct (explain_frame bb ds Z') as [df'|] eqn:EX; [|discriminate]. cbn [bind] in H. assert (Z' = Z /\ df' = df) as (-> & ->) by (split; congruence). clear H.
  split; [destruct W as (C & N & ND & _); rewrite <- C; eapply explain_rect; eassumption|]. split; [eapply labelled_all; eassumption|].
  destruct (array_total _ _ _ _ _ _ _ W I R K LE NR) as (A & HA). destruct (diffoutcome_mix _ bb _ _ _ _ _ _ _ _ _ _ _ W I SO R LE HA S) as (dist & LD & D & MIX).
  exists A, sel, dfx, x0, dist. split; [eapply encoded_array; eassumption|]. split; [reflexivity|]. split; [unfold lget in X0; destruct (nth_error (records dfx) 0); [cbn in X0; congruence|discriminate]|]. split; [assumption|]. split; [assumption|]. split; [assumption|].
  split; [eapply array_rows; eassumption|]. intros r i z j c Sr Zr J. assert (EX' : explain_frame bb ds (Z ++ []) = Ok df) by (rewrite app_nil_r; assumption).
  destruct (copied_rows bb _ _ _ _ _ _ _ W I R K LE _ _ _ _ _ MS NU EX') as (L & P). destruct (P r i Sr) as (_ & z' & Zr' & _ & V). rewrite Zr in Zr'. injection Zr' as <-. exact (V j c J).
Qed.
(** random_neighborhood: these rows (all rows, if not stratified), then a thousand drawn ones; a drawn category is one of the rows before *)
Theorem C97_random_neighborhood : forall bb argsort cls features ds choice normal dfZ n x stratified df Z, lore_dataset cls features ds -> In cls (ds_discrete ds) -> sorts argsort -> rectangular n dfZ ->
  filter (fun c => negb (eqb c cls)) (dkeys dfZ) = features -> numeric_rest ds features dfZ -> random_neighborhood bb argsort cls ds choice normal dfZ x stratified = Ok (df, Z) ->
  dkeys df = cls :: features /\ labelled bb cls ds df Z /\
  exists A sel new, encoded ds features dfZ n A /\ Z = map (fun i => nth i A []) sel ++ new /\ List.length new = 1000%nat /\
    (stratified = false -> sel = seq 0 n) /\
    (stratified = true -> exists dfx x0 dist, explain_frame bb ds [x] = Ok dfx /\ nth_error (records dfx) 0 = Some x0 /\ List.length dist = n /\
       (forall i z, nth_error (records dfZ) i = Some z -> lore_distance cls ds (ds_discrete ds) x0 z = Ok (nth i dist None)) /\ nearest_mix dist (fun i => Z.eqb (bb (nth i A [])) 0) n 100 10 (qc 1 10) sel) /\
    (forall r i z j c, nth_error sel r = Some i -> nth_error Z r = Some z -> nth_error features j = Some c -> exists v, value_at dfZ c i = Some v /\ copied ds df r z j c v) /\
    (forall row j c, In row new -> nth_error features j = Some c -> exists w, nth_error row j = Some w /\ drawn_value (map (fun i => nth i A []) sel) (ds_discrete ds) (ds_continuous ds) (ds_types ds) row j c w) /\
    (forall r c, (List.length sel <= r < List.length Z)%nat -> In c features -> In c (ds_discrete ds) -> exists i v, In i sel /\ value_at dfZ c i = Some v /\ value_at df c r = Some v).
Proof.
  intros bb argsort cls features ds choice normal dfZ n x stratified df Z W I SO R K NR H.
  assert (G : exists dfe e sel rows Z0, label_encode dfZ (ds_discrete ds) (Some (ds_encoders ds)) = Ok (dfe, e) /\ mapM (lget (matrix_without cls dfe)) sel = Ok rows /\ mapM numbers rows = Ok Z0 /\
    generate_random_data cls choice normal Z0 (ds_columns ds) (ds_discrete ds) (ds_continuous ds) (ds_types ds) 1000 true = Ok Z /\ explain_frame bb ds Z = Ok df /\ (stratified = false -> sel = seq 0 n) /\
    (stratified = true -> exists dfx x0, explain_frame bb ds [x] = Ok dfx /\ nth_error (records dfx) 0 = Some x0 /\ get_closest_diffoutcome argsort (lore_distance cls ds (ds_discrete ds)) (bb_cells bb) dfZ x0 (ds_discrete ds) cls (ds_encoders ds) 100 (qc 1 10) = Ok sel)).
  { unfold random_neighborhood in H. destruct stratified.
    - destruct (explain_frame bb ds [x]) as [dfx|] eqn:EXx; [|discriminate]. cbn [bind] in H. destruct (lget (records dfx) 0) as [x0|] eqn:X0; [|discriminate]. cbn [bind] in H.
      match type of H with bind ?r _ = _ => destruct r as [sel|] eqn:S; [|discriminate] end. cbn [bind] in H.
      destruct (label_encode dfZ (ds_discrete ds) (Some (ds_encoders ds))) as [(dfe & e)|] eqn:LE; [|discriminate]. cbn [bind fst] in H.
      destruct (mapM (lget (matrix_without cls dfe)) sel) as [rows|] eqn:MS; [|discriminate]. cbn [bind] in H.
      destruct (mapM numbers rows) as [Z0|] eqn:NU; [|discriminate]. cbn [bind] in H. match type of H with bind ?r _ = _ => destruct r as [Z'|] eqn:GR; [|discriminate] end. cbn [bind] in H. destruct (explain_frame bb ds Z') as [df'|] eqn:EX; [|discriminate]. cbn [bind] in H. assert (Z' = Z /\ df' = df) as (-> & ->) by (split; congruence).
      exists dfe, e, sel, rows, Z0. splits; try assumption; try reflexivity; [intro; discriminate|]. intros _. exists dfx, x0. split; [reflexivity|]. split; [unfold lget in X0; destruct (nth_error (records dfx) 0); [cbn in X0; congruence|discriminate]|assumption].
    - destruct (label_encode dfZ (ds_discrete ds) (Some (ds_encoders ds))) as [(dfe & e)|] eqn:LE; [|discriminate]. cbn [bind fst] in H.
      destruct (mapM numbers (matrix_without cls dfe)) as [Z0|] eqn:NU; [|discriminate]. cbn [bind] in H. match type of H with bind ?r _ = _ => destruct r as [Z'|] eqn:GR; [|discriminate] end. cbn [bind] in H. destruct (explain_frame bb ds Z') as [df'|] eqn:EX; [|discriminate]. cbn [bind] in H. assert (Z' = Z /\ df' = df) as (-> & ->) by (split; congruence).
      assert (AR := all_rows _ (matrix_without cls dfe)). rewrite (matrix_rows _ _ _ _ _ _ _ W I R LE) in AR.
      exists dfe, e, (seq 0 n), (matrix_without cls dfe), Z0. splits; try assumption; try reflexivity. intro; discriminate. }
  clear H. destruct G as (dfe & e & sel & rows & Z0 & LE & MS & NU & GR & EX & SF & ST).
  split; [destruct W as (C & N & ND & _); rewrite <- C; eapply explain_rect; eassumption|]. split; [eapply labelled_all; eassumption|].
  destruct (array_total _ _ _ _ _ _ _ W I R K LE NR) as (A & HA). destruct (array_rows _ _ _ _ _ _ _ W I R LE _ _ _ _ HA MS NU) as (_ & EZ0).
  assert (NC : NoDup (ds_columns ds)) by apply W. assert (FC : filter (fun c => negb (eqb c cls)) (ds_columns ds) = features).
  { destruct W as (C & N & _). rewrite C in N |- *. cbn [filter]. rewrite eqb_refl. cbn [negb]. inversion N as [|? ? NI _]; subst. apply filter_noop. intros c Ic. destruct (eqb c cls) eqn:E; [|reflexivity]. apply (proj1 (@eqb_eq _ _ c cls)) in E. subst. contradiction. }
  destruct (random_rows _ _ _ _ _ _ _ _ _ _ _ NC GR) as (new & EZ & LN & _ & DV). rewrite FC in DV. rewrite EZ0 in EZ, DV.
  assert (LS : List.length Z0 = List.length sel) by (rewrite EZ0, map_length; reflexivity). assert (EXc := EX). rewrite EZ, <- EZ0 in EXc.
  destruct (copied_rows bb _ _ _ _ _ _ _ W I R K LE _ _ _ _ _ MS NU EXc) as (_ & P).
  assert (P' : forall r i z j c, nth_error sel r = Some i -> nth_error Z r = Some z -> nth_error features j = Some c -> exists v, value_at dfZ c i = Some v /\ copied ds df r z j c v).
  { intros r i z j c Sr Zr J. destruct (P r i Sr) as (_ & z' & Zr' & _ & V). rewrite EZ, <- EZ0 in Zr. rewrite nth_error_app1 in Zr by (apply nth_error_Some; congruence). rewrite Zr in Zr'. injection Zr' as <-. exact (V j c J). }
  exists A, sel, new. split; [eapply encoded_array; eassumption|]. split; [assumption|]. split; [assumption|]. split; [assumption|]. split; [|split; [exact P'|split; [exact DV|]]].
  - intro E. destruct (ST E) as (dfx & x0 & E1 & E2 & S). destruct (diffoutcome_mix _ bb _ _ _ _ _ _ _ _ _ _ _ W I SO R LE HA S) as (dist & LD & D & MIX). exists dfx, x0, dist. splits; assumption.
  - intros r c (B1 & B2) Ic Id. apply In_nth_error in Ic. destruct Ic as (j & J).
    destruct (nth_error Z r) as [row|] eqn:Zr; [|apply nth_error_None in Zr; lia]. assert (Ir : In row new). { rewrite EZ in Zr. rewrite nth_error_app2 in Zr by (rewrite map_length; assumption). eapply nth_error_In; eassumption. }
    destruct (DV row j c Ir J) as (w & Wj & (values & t & v & CV & _ & STO & IV & _)). specialize (IV Id). apply In_nth_error in IV. destruct IV as (r0 & V0).
    assert (B0 : (r0 < List.length sel)%nat). { assert (T := f_equal (@List.length _) CV). rewrite !map_length in T. rewrite T. apply nth_error_Some. congruence. }
    destruct (nth_error sel r0) as [i0|] eqn:S0; [|apply nth_error_None in S0; lia]. assert (Z00 : nth_error Z r0 = Some (nth i0 A [])) by (rewrite EZ, nth_error_app1 by (rewrite map_length; assumption); rewrite nth_error_map, S0; reflexivity).
    destruct (P' r0 i0 _ j c S0 Z00 J) as (v0 & Va & q & Q & C1 & _). destruct (C1 Id) as ((classes & k & Dk & Nk & ->) & _).
    assert (EV : v = qn k). { unfold column_values in CV. assert (T := f_equal (fun l => nth_error l r0) CV). cbv beta in T. rewrite !nth_error_map, S0 in T. cbn [option_map] in T. rewrite V0 in T. cbn [option_map] in T. rewrite Q in T. congruence. } subst v.
    assert (EW : w = qn k). { destruct STO as (T1 & T2). destruct (string_dec t "integer") as [Ti|Ti]; [|exact (T2 Ti)]. destruct (T1 Ti) as (m & TM & ->). unfold qn in TM. apply trunc_unique in TM. subst m. reflexivity. } subst w.
    exists i0, v0. split; [eapply nth_error_In; eassumption|]. split; [assumption|].
    destruct W as (C & N & ND & _). unfold explain_frame in EX. rewrite C in EX, N. destruct (@C75_columns _ _ _ _ _ _ _ N ND EX) as (LY & KD & G). destruct (G (Datatypes.S j) c J) as (col & t' & Dc & Tc & Lc & V).
    destruct (V r) as (q' & S' & V1 & _); [rewrite map_length; assumption|]. cbn [source] in S'. rewrite Zr, Wj in S'. injection S' as <-. destruct (V1 Id) as (u' & k' & Du' & _ & T' & Vc). rewrite Dk in Du'. injection Du' as <-. unfold qn in T'. apply trunc_unique in T'. apply Nat2Z.inj in T'. subst k'. unfold value_at. rewrite Dc, Vc. assumption.
Qed.
(** it succeeds if the table has the discrete columns, with values known to their encoders, the types are known and the black box answers with
    class codes *)
Theorem C97_real_data_total : forall bb cls features ds dfZ n classes, lore_dataset cls features ds -> In cls (ds_discrete ds) -> rectangular n dfZ ->
  filter (fun c => negb (eqb c cls)) (dkeys dfZ) = features -> numeric_rest ds features dfZ -> incl (ds_discrete ds) (ds_columns ds) ->
  (forall c, In c (ds_columns ds) -> exists t, dget c (ds_types ds) = Some t) ->
  (forall c, In c (ds_discrete ds) -> exists known col, dget c (ds_encoders ds) = Some known /\ dget c dfZ = Some col /\ incl col known) ->
  dget cls (ds_encoders ds) = Some classes -> (forall z, (0 <= bb z < Z.of_nat (List.length classes))%Z) ->
  exists df Z, real_data bb cls ds dfZ = Ok (df, Z).
Proof.
  intros bb cls features ds dfZ n classes W I R K NR IC T G DC B. assert (ND : NoDup (ds_discrete ds)) by apply W.
  destruct (@reencode_fold (ds_encoders ds) (ds_discrete ds) dfZ ND) as (dfe & LE & _).
  { intros c Ic. destruct (G c Ic) as (u & col & Du & Dc & S). destruct (transform_total _ _ S) as (codes & TR). exists u, col, codes. splits; assumption. }
  destruct (array_total _ _ _ _ _ _ _ W I R K LE NR) as (A & HA). assert (EA := encoded_array _ _ _ _ _ _ _ W I R K LE A HA). destruct W as (C & N & _). destruct EA as (LA & EA).
  destruct (@C75_total (map bb A) A (ds_columns ds) (ds_types ds) (ds_discrete ds) (ds_encoders ds)) as (df & EX); try assumption.
  - rewrite C. discriminate.
  - apply map_length.
  - intros row Ir. apply In_nth_error in Ir. destruct Ir as (i & Ai). rewrite C. cbn. destruct (EA i row Ai) as (-> & _). apply le_n.
  - intros i c Ci Ic. destruct (G c Ic) as (u & col & Du & Dc & S). exists u. split; [assumption|]. intros j q SQ. rewrite C in Ci. destruct i as [|i].
    + cbn in Ci. assert (c = cls) by congruence. subst c. assert (u = classes) by congruence. subst u. cbn [source] in SQ. rewrite nth_error_map in SQ. destruct (nth_error A j) as [z|]; [|discriminate]. cbn in SQ. assert (q = qz (bb z)) by congruence. subst q. specialize (B z).
      exists (Z.to_nat (bb z)). split; [lia|]. rewrite Z2Nat.id by lia. split; intro P; (split; [rewrite ?qz_lt, ?qz_le; lia|rewrite ?qz_lt, ?qz_le; lia]).
    + cbn [nth_error] in Ci. cbn [source] in SQ. destruct (nth_error A j) as [z|] eqn:Aj; [|discriminate]. destruct (EA j z Aj) as (_ & V). destruct (V i c Ci) as (v & q' & V1 & V2 & V3 & _). rewrite SQ in V2. injection V2 as <-. destruct (V3 Ic) as (u' & k & Du' & Nk & ->). rewrite Du in Du'. injection Du' as <-.
      exists k. split; [apply nth_error_Some; congruence|]. split; intro P; (split; [unfold qn; rewrite ?qz_lt, ?qz_le; lia|unfold qn; rewrite ?qz_lt, ?qz_le; lia]).
  - exists df, A. unfold real_data. match goal with |- bind ?r _ = _ => change r with (label_encode dfZ (ds_discrete ds) (Some (ds_encoders ds))); replace r with (@Ok (frame * encoders) (dfe, ds_encoders ds)) by (symmetry; exact LE) end. cbn [bind fst]. rewrite HA. cbn [bind]. unfold explain_frame. rewrite EX. reflexivity.
Qed.
Definition nx_ds : dataset := mkDs ["cls"; "a"; "b"; "d"] [CStr "no"; CStr "yes"] [("cls", "string"); ("a", "integer"); ("b", "double"); ("d", "string")] ["d"; "cls"] ["a"; "b"]
  [(0%nat, "a"); (1%nat, "b"); (2%nat, "d")] [("d", [CStr "x"; CStr "y"]); ("cls", [CStr "no"; CStr "yes"])] [] [].
Definition nx_df : frame := [("cls", [CStr "no"; CStr "no"; CStr "yes"]); ("a", [CNum 1; CNum (qz 2); CNum (qz 3)]); ("b", [CNum (qz 9); CNum (qz 5); CNum (qz 4)]); ("d", [CStr "x"; CStr "y"; CStr "y"])].
Definition nx_bb (z : list Qc) : BinNums.Z := if qleb (qz 2) (nth 0 z 0) then 1%Z else 0%Z.
Lemma nx_real : real_data nx_bb "cls" nx_ds nx_df = Ok ([("cls", [CStr "no"; CStr "yes"; CStr "yes"]); ("a", [CNum 1; CNum (qz 2); CNum (qz 3)]); ("b", [CNum (qz 9); CNum (qz 5); CNum (qz 4)]); ("d", [CStr "x"; CStr "y"; CStr "y"])], [[1; qz 9; 0]; [qz 2; qz 5; 1]; [qz 3; qz 4; 1]]).
Proof. qex. Qed.
(** the third row is the nearest to the instance *)
Lemma nx_closed : closed_real_data nx_bb stable_argsort "cls" nx_ds nx_df [qz 3; qz 4; 1] = Ok ([("cls", [CStr "yes"; CStr "yes"; CStr "no"]); ("a", [CNum (qz 3); CNum (qz 2); CNum 1]); ("b", [CNum (qz 4); CNum (qz 5); CNum (qz 9)]); ("d", [CStr "y"; CStr "y"; CStr "x"])], [[qz 3; qz 4; 1]; [qz 2; qz 5; 1]; [1; qz 9; 0]]).
Proof. qex. Qed.
Example C97_instance : lore_dataset "cls" ["a"; "b"; "d"] nx_ds /\ In "cls" (ds_discrete nx_ds) /\ sorts stable_argsort /\ rectangular 3 nx_df /\ filter (fun c => negb (eqb c "cls")) (dkeys nx_df) = ["a"; "b"; "d"] /\
  numeric_rest nx_ds ["a"; "b"; "d"] nx_df /\ incl (ds_discrete nx_ds) (ds_columns nx_ds) /\ (forall c, In c (ds_columns nx_ds) -> exists t, dget c (ds_types nx_ds) = Some t) /\
  (forall c, In c (ds_discrete nx_ds) -> exists known col, dget c (ds_encoders nx_ds) = Some known /\ dget c nx_df = Some col /\ incl col known) /\ (forall z, (0 <= nx_bb z < 2)%Z).
Proof.
  splits; try reflexivity.
  - split; [reflexivity|]. cbn. splits; repeat constructor; cbn; intuition discriminate.
  - right. left. reflexivity.
  - exact stable_sorts.
  - split; [repeat constructor; cbn; intuition discriminate|]. intros c col [E|[E|[E|[E|[]]]]]; apply (f_equal snd) in E; cbn [snd] in E; rewrite <- E; reflexivity.
  - intros c i v [<-|[<-|[<-|[]]]] N; [| |exfalso; apply N; left; reflexivity]; destruct i as [|[|[|i]]]; cbn; intro E; try (destruct i; discriminate); injection E as <-; eexists; reflexivity.
  - intros c [<-|[<-|[]]]; cbn; tauto.
  - intros c [<-|[<-|[<-|[<-|[]]]]]; eexists; reflexivity.
  - intros c [<-|[<-|[]]]; do 2 eexists; (split; [reflexivity|]); (split; [reflexivity|]); intros v Iv; cbn in *; intuition.
  - intro z. unfold nx_bb. destruct (qleb (qz 2) (nth 0 z 0)); lia.
Qed.
Print Assumptions C97_real_data. Print Assumptions C97_closed_real_data. Print Assumptions C97_random_neighborhood. Print Assumptions C97_real_data_total.

(** ** C98 *)
(** a generator for every column, by position; one of a column of numbers draws numbers, another one values of the column *)
Theorem C98_generators : forall normal df, dkeys (get_feature_values normal df) = seq 0 (List.length df) /\
  forall j g, In (j, g) (get_feature_values normal df) -> forall s, drawn_cell df j (g s).
Proof.
  intros normal df. unfold get_feature_values. split.
  - unfold dkeys. rewrite map_map. rewrite map_ext with (g := fst) by (intros (i & (c & col)); reflexivity). unfold enumerate, zip.
    assert (G : forall k (l : list (string * list cell)), map fst (combine (seq k (List.length l)) l) = seq k (List.length l)) by (intros k l; revert k; induction l as [|y l IH]; intro k; [reflexivity|]; cbn; f_equal; apply IH). apply G.
  - intros j g H s. apply in_map_iff in H. destruct H as ((i & (c & col)) & E & I). assert (i = j) by congruence. subst i. apply In_nth_error in I. destruct I as (j' & I). apply enumerate_nth_inv in I. cbn [fst snd] in I. destruct I as (-> & I).
    exists c, col. split; [assumption|]. assert (EG : g = fun s => match numbers col with Ok _ => CNum (normal c s) | Err _ => nth (s mod List.length (appearing col)) (appearing col) (CNum 0) end) by congruence. subst g. cbv beta. split.
    + intro A. destruct (P_Neighborhood3.numbers_ok _ A) as (qs & ->). eexists. reflexivity.
    + intros (t & It). destruct (numbers col) as [qs|] eqn:E'; [apply numbers_spec in E'; subst col; apply in_map_iff in It; destruct It as (q & Q & _); discriminate|].
      apply appearing_In. apply nth_In. apply Nat.mod_upper_bound. assert (IA : In (CStr t) (appearing col)) by (apply appearing_In; assumption). destruct (appearing col); [destruct IA|discriminate].
Qed.
(** a random individual has a value for every column, made by its generator *)
Theorem C98_random_individual : forall normal df seed, List.length (random_init seed (get_feature_values normal df)) = List.length df /\
  forall j v, nth_error (random_init seed (get_feature_values normal df)) j = Some v -> drawn_cell df j v.
Proof.
  intros normal df seed. destruct (C98_generators normal df) as (K & G). assert (L := f_equal (@List.length _) K). unfold dkeys in L. rewrite map_length, seq_length in L. split; [unfold random_init; rewrite map_length; assumption|].
  intros j v H. unfold random_init in H. rewrite nth_error_map in H. destruct (nth_error (get_feature_values normal df) j) as [(j' & g)|] eqn:E; [|discriminate]. cbn [option_map fst snd] in H.
  assert (Kj : nth_error (dkeys (get_feature_values normal df)) j = Some j') by (unfold dkeys; rewrite nth_error_map, E; reflexivity). rewrite K in Kj. assert (j' = j). { assert (B : (j < List.length df)%nat) by (rewrite <- L; apply nth_error_Some; congruence). rewrite nth_error_nth' with (d := 0%nat) in Kj by (rewrite seq_length; assumption). rewrite seq_nth in Kj by assumption. cbn in Kj. congruence. } subst j'.
  assert (v = g (seed j)) by congruence. subst v. apply G. eapply nth_error_In; eassumption.
Qed.
(** an informed individual keeps the values of the original where no new one is drawn; the search only ever holds original and drawn values *)
Theorem C98_informed_individual : forall normal df coin seed original prob r, informed_init coin seed (get_feature_values normal df) original prob = Ok r ->
  List.length r = List.length original /\ forall j v, nth_error r j = Some v -> nth_error original j = Some v \/ drawn_cell df j v.
Proof.
  intros normal df coin seed original prob r H. destruct (C98_generators normal df) as (K & G). assert (N : NoDup (dkeys (get_feature_values normal df))) by (rewrite K; apply seq_NoDup).
  destruct (@Properties_Genetic.C67_mutation _ _ _ _ _ _ _ N H) as (L & M1 & M2). split; [assumption|]. intros j v V. destruct (in_dec Nat.eq_dec j (dkeys (get_feature_values normal df))) as [I|I]; [|rewrite M2 in V by (left; assumption); left; assumption].
  destruct (Qclt_le_dec (coin j) prob) as [C|C]; [|rewrite M2 in V by (right; assumption); left; assumption]. right. apply in_map_iff in I. destruct I as ((j' & g) & J & I). cbn in J. subst j'. rewrite (M1 j g I C) in V. assert (v = g (seed j)) by congruence. subst v. apply G. assumption.
Qed.
Theorem C98_population : forall normal df fitness rnd init cx_prob cross_prob mut_prob mut_ext_prob k rounds final,
  genetic_algorithm fitness rnd init cx_prob cross_prob mut_prob mut_ext_prob (get_feature_values normal df) k rounds = Ok final ->
  forall ind j v, In ind final -> nth_error ind j = Some v -> (exists ind0, In ind0 init /\ nth_error ind0 j = Some v) \/ drawn_cell df j v.
Proof.
  intros normal df fitness rnd init cx cr mp me k rounds final H ind j v I V. destruct (@Properties_Genetic.C67_genes _ _ _ _ _ _ _ _ _ _ _ _ H) as (D & _). destruct (D ind I j v V) as [A|(g & s & Ig & ->)]; [left; assumption|right]. apply (proj2 (C98_generators normal df) j g Ig).
Qed.
Example C98_instance : (exists s, In (CStr s) [CStr "x"; CStr "y"; CStr "y"]) /\ random_init (fun j => j) (get_feature_values (fun _ _ => qc 7 2) nx_df) = [CStr "no"; CNum (qc 7 2); CNum (qc 7 2); CStr "y"] /\
  random_init (fun j => 1%nat) (get_feature_values (fun _ _ => qc 7 2) nx_df) = [CStr "yes"; CNum (qc 7 2); CNum (qc 7 2); CStr "y"].
Proof. splits; [exists "x"; left; reflexivity|reflexivity|reflexivity]. Qed.
Print Assumptions C98_generators. Print Assumptions C98_random_individual. Print Assumptions C98_informed_individual. Print Assumptions C98_population.
