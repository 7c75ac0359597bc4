(** * Proofs about neighbourhoods: the fuzzy variables *)
From Verif Require Import Prelude M_Fuzzy M_Discretize P_Discretize M_Rule S_Rule M_FDT S_FDT P_FDT M_Counterfactual S_Counterfactual P_Counterfactual M_Explainer P_FuzzyVar P_Metrics M_Neighborhood S_Neighborhood P_Neighborhood.
From Coq Require Import Reals.
Set Implicit Arguments.
Open Scope Qc_scope.

Lemma appearing_In x l : In x (appearing l) <-> In x l.
Proof.
  induction l as [|y l IH]; [reflexivity|]. cbn [appearing]. split; (intros [->|H]; [left; reflexivity|]).
  - apply filter_In in H. right. apply IH, H.
  - destruct (eq_dec y x) as [->|N]; [left; reflexivity|]. right. apply filter_In. split; [apply IH, H|]. unfold eqb. destruct (eq_dec x y); [congruence|reflexivity].
Qed.
Lemma appearing_NoDup l : NoDup (appearing l).
Proof.
  induction l as [|y l IH]; cbn [appearing]; constructor.
  - intro H. apply filter_In in H. destruct H as [_ H]. unfold eqb in H. destruct (eq_dec y y); [discriminate|congruence].
  - apply NoDup_filter, IH.
Qed.
Lemma numbers_spec col qs : numbers col = Ok qs -> col = map CNum qs.
Proof.
  revert qs. induction col as [|x col IH]; intros qs H; [injection H as <-; reflexivity|]. unfold numbers in *. cbn [mapM] in H. destruct x as [q|]; [|discriminate]. cbn [bind] in H.
  match type of H with bind ?r _ = _ => destruct r as [l|]; [|discriminate] end. cbn [bind] in H. injection H as <-. cbn [map]. f_equal. apply IH. reflexivity.
Qed.
Lemma small_std_const l x : (2 <= List.length l)%nat -> (forall y, In y l -> y = x) -> small_std l = true.
Proof.
  intros L C. destruct l as [|a [|b l]]; try (cbn in L; lia). unfold small_std. remember (a :: b :: l) as w eqn:W. clear W a b l.
  assert (S : qsum w = qn (List.length w) * x).
  { clear L. induction w as [|a w IH]; [apply Qc_is_canon; reflexivity|]. rewrite qsum_cons, IH by (intros; apply C; right; assumption). rewrite (C a) by (left; reflexivity). cbn [List.length].
    replace (qn (S (List.length w))) with (qn (List.length w) + 1); [ring|]. rewrite qn_S. ring. }
  assert (P : 0 < qn (List.length w)) by (apply qn_pos; lia).
  replace (qsum (map (fun x0 => (x0 - qsum w / qn (List.length w)) * (x0 - qsum w / qn (List.length w))) w)) with 0.
  - apply qltb_lt. unfold Qcdiv. rewrite Qcmult_0_l. reflexivity.
  - symmetry. apply qsum_map_zero. intros y I. rewrite (C y I), S. replace (qn (List.length w) * x / qn (List.length w)) with x; [ring|]. field. intro Z. rewrite Z in P. discriminate.
Qed.
Lemma varied l : (2 <= List.length l)%nat -> small_std l = false -> exists x y, In x l /\ In y l /\ x <> y.
Proof.
  intros L S. destruct l as [|a l]; [cbn in L; lia|]. destruct (Forall_Exists_dec (fun y => y = a) (fun y => Qc_eq_dec y a) (a :: l)) as [F|E].
  - rewrite Forall_forall in F. rewrite (@small_std_const (a :: l) a L F) in S. discriminate.
  - apply Exists_exists in E. destruct E as (y & I & N). exists y, a. split; [assumption|]. split; [left; reflexivity|assumption].
Qed.
Lemma In_dict_of (V : Type) (l : list (string * V)) k v : In (k, v) (dict_of l) -> In (k, v) l.
Proof.
  intro H. assert (G := @dget_nodup _ _ _ k v _ (dict_of_nodup_keys l) H). rewrite dict_of_get in G. apply dget_In in G. apply in_rev. assumption.
Qed.
Definition order_of (cols : list string) : dict string nat := dict_of (map (fun ic : nat * string => (snd ic, fst ic)) (enumerate cols)).
Lemma order_spec cols : NoDup cols -> List.length (order_of cols) = List.length cols /\ dkeys (order_of cols) = cols /\
  forall c i, dget c (order_of cols) = Some i <-> nth_error cols i = Some c.
Proof.
  intro N. unfold order_of. assert (K : map fst (map (fun ic : nat * string => (snd ic, fst ic)) (enumerate cols)) = cols).
  { rewrite map_map. cbn. apply map_snd_enumerate. }
  rewrite dict_of_nodup by (rewrite K; assumption). split; [|split].
  - rewrite map_length. rewrite <- (map_snd_enumerate cols) at 2. rewrite map_length. reflexivity.
  - exact K.
  - intros c i. split.
    + intro H. apply dget_In in H. apply in_map_iff in H. destruct H as ([j c'] & E & I). cbn in E. injection E as -> ->. apply In_nth_error in I. destruct I as [j I].
      apply enumerate_nth_inv in I. cbn in I. destruct I as [<- I]. assumption.
    + intro H. apply dget_nodup; [unfold dkeys; rewrite K; assumption|]. apply in_map_iff. exists (i, c). split; [reflexivity|]. eapply nth_error_In. apply enumerate_nth. assumption.
Qed.

Section Vars.
  Variables (cut : string -> list Qc -> Z -> option (list Qc * Qc) * option (list Qc * Qc)) (show : Qc -> string) (show_cell : cell -> string).
  Definition good_points (qs pts : list Qc) : Prop :=
    exists first rest, pts = first :: rest /\ StronglySorted Qclt (first :: rest) /\ (forall p, In p (first :: rest) -> In p qs) /\ (forall q, In q qs -> first <= q).
  Lemma unique_points qs : qs <> [] -> good_points qs (qunique qs).
  Proof.
    intro N. unfold good_points. assert (S := qunique_sorted qs). destruct (qunique qs) as [|f r] eqn:E.
    - destruct qs as [|q qs]; [congruence|]. assert (In q (qunique (q :: qs))) by (apply qunique_In; left; reflexivity). rewrite E in H. contradiction.
    - exists f, r. split; [reflexivity|]. split; [assumption|]. split.
      + intros p I. apply qunique_In. rewrite E. assumption.
      + intros q I. apply qunique_In in I. rewrite E in I. destruct I as [->|I]; [apply Qcle_refl|]. inversion S as [|? ? ? F]; subst. rewrite Forall_forall in F. apply Qclt_le_weak, F, I.
  Qed.
  Lemma entropy_good (y : list Z) th pv (name : string) qs sets p : (2 <= List.length qs)%nat -> List.length qs = List.length y -> (~ In name pv -> small_std qs = false) ->
    points_of cut "entropy" y sets th pv (name, qs) = Ok p -> good_points qs p.
  Proof.
    intros L LY NP H. unfold points_of in H. destruct (memb name pv) eqn:M.
    - injection H as <-. apply unique_points. destruct qs; [cbn in L; lia|discriminate].
    - change (eqb "entropy"%string "entropy"%string) with true in H. cbv iota in H.
      assert (NI : ~ In name pv) by (intro I; rewrite (proj2 (@memb_In _ _ name pv) I) in M; discriminate). assert (D := @varied qs L (NP NI)).
      assert (F : map fst (zip qs y) = qs). { clear -LY. unfold zip. revert y LY. induction qs as [|q qs IH]; intros [|c y] L; cbn in *; try discriminate; [reflexivity|]. f_equal. apply IH. lia. }
      rewrite <- F in D. destruct (C14_all 0 th (zip qs y) D) as (m & r & E & I & MN & S & R & _). rewrite E in H. injection H as <-. rewrite F in *.
      exists m, r. split; [reflexivity|]. split; [assumption|]. split; [|assumption]. intros p [<-|J]; auto.
  Qed.
  Lemma good_sets qs pts name : good_points qs pts -> exists sets, continuous_sets "point_set" (zip (col_labels show None name pts) pts) = Ok sets.
  Proof. intros (f & r & -> & _). cbn [col_labels map]. destruct r as [|g r]; eexists; reflexivity. Qed.

  Lemma tb_column_nth X name i : NoDup (tb_cols X) -> nth_error (tb_cols X) i = Some name -> tb_column X name = column (tb_rows X) i.
  Proof. intros N H. unfold tb_column. rewrite (index_of_spec _ N H). reflexivity. Qed.
  Lemma column_length X i col : column X i = Ok col -> List.length col = List.length X.
  Proof. apply mapM_length. Qed.

  (** the parts of a successful run *)
  Lemma vars_inv s kw X vs division : fuzzy_vars cut show show_cell s division kw = Ok (X, vs) ->
    exists y num cat cols pts disc, nb_X s = Some X /\ nb_y s = Some y /\ z_num kw = Some num /\ z_cat kw = Some cat /\
      Forall2 (fun c cq => fst cq = c /\ exists col, tb_column X c = Ok col /\ numbers col = Ok (snd cq)) num cols /\
      List.length (tb_rows X) = List.length y /\ (1 <= List.length (tb_rows X))%nat /\ num <> [] /\
      Forall2 (fun nc np => fst np = fst nc /\ points_of cut division y (or_default 0%Z (z_sets kw)) (or_default None (z_th kw)) (map fst (filter (fun cq => small_std (snd cq)) cols)) nc = Ok (snd np)) cols pts /\
      Forall2 (fun c cv => fst cv = c /\ exists col, tb_column X c = Ok col /\ snd cv = appearing col) cat disc /\
      get_fuzzy_variables show show_cell (dict_of pts) (dict_of disc) (order_of (tb_cols X)) None None "point_set" = Ok vs.
  Proof.
    unfold fuzzy_vars. intro H. destruct (nb_X s) as [X'|]; [|discriminate]. destruct (nb_y s) as [y|]; [|discriminate]. destruct (nb_Xy s); [|discriminate].
    match type of H with (if ?b then _ else _) = _ => destruct b; [discriminate|] end. destruct (z_num kw) as [num|]; [|discriminate]. destruct (z_cat kw) as [cat|]; [|discriminate].
    match type of H with bind ?r _ = _ => destruct r as [cols|] eqn:E1; [|discriminate] end. cbn [bind] in H. destruct (z_verbose kw); [discriminate|].
    match type of H with bind ?r _ = _ => destruct r as [points|] eqn:E2; [|discriminate] end. cbn [bind] in H. match type of H with bind ?r _ = _ => destruct r as [disc|] eqn:E3; [|discriminate] end. cbn [bind] in H.
    match type of H with bind ?r _ = _ => destruct r as [vs'|] eqn:E4; [|discriminate] end. cbn [bind] in H. injection H as <- <-.
    unfold get_fuzzy_points in E2. match type of E2 with (if ?b then _ else _) = _ => destruct b eqn:B; [discriminate|] end. match type of E2 with (if ?b then _ else _) = _ => destruct b; [discriminate|] end.
    match type of E2 with bind ?r _ = _ => destruct r as [pts|] eqn:E5; [|discriminate] end. cbn [bind] in E2. injection E2 as <-.
    apply orb_false_elim in B. destruct B as [B B3]. apply orb_false_elim in B. destruct B as [B1 B2]. apply negb_false_iff, Nat.eqb_eq in B3. apply Nat.eqb_neq in B1, B2.
    exists y, num, cat, cols, pts, disc. split; [reflexivity|]. split; [reflexivity|]. split; [reflexivity|]. split; [reflexivity|].
    split. { apply mapM_ok in E1. clear -E1. induction E1 as [|c cq l l' H F IH]; constructor; [|assumption]. destruct (tb_column X' c) as [col|] eqn:E; [|discriminate]. cbn [bind] in H. destruct (numbers col) eqn:E2; [|discriminate]. cbn [bind] in H. injection H as <-. cbn. eauto. }
    split; [assumption|]. split; [lia|]. split. { intros ->. apply mapM_length in E1. cbn in E1. lia. }
    split. { apply mapM_ok in E5. generalize dependent (map fst (filter (fun cq : string * list Qc => small_std (snd cq)) cols)). intros pv E5. clear -E5. induction E5 as [|c cq l l' H F IH]; constructor; [|assumption]. match type of H with bind ?r _ = _ => destruct r eqn:E; [|discriminate] end. cbn [bind] in H. injection H as <-. cbn. auto. }
    split. { apply mapM_ok in E3. clear -E3. induction E3 as [|c cq l l' H F IH]; constructor; [|assumption]. destruct (tb_column X' c) as [col|] eqn:E; [|discriminate]. cbn [bind] in H. injection H as <-. cbn. eauto. }
    exact E4.
  Qed.

  Lemma small_std_spec qs : (2 <= List.length qs)%nat -> (small_std qs = true <-> nearly_constant qs).
  Proof.
    intro L. assert (N0 : qn (List.length qs) <> 0) by (intro Q; assert (P := @qn_pos (List.length qs) ltac:(lia)); rewrite Q in P; discriminate P).
    assert (N1 : qn (List.length qs) - 1 <> 0).
    { destruct (List.length qs) as [|[|n]]; try lia. rewrite !qn_S. assert (P := qn_nonneg n). intro Q. qlra. }
    assert (T : qc 1 10000000000 = qc 1 100000 * qc 1 100000) by qex.
    unfold small_std. destruct qs as [|a [|b l]]; try (cbn in L; lia). remember (a :: b :: l) as w eqn:W. clear W a b l. cbv zeta. rewrite qltb_lt. split.
    - intro H. split; [assumption|]. exists (qsum w / qn (List.length w)). eexists. split; [field; assumption|]. split; [|rewrite <- T; exact H]. apply Qcmult_div_r. assumption.
    - intros (_ & m & v & M & V & H). assert (EM : qsum w / qn (List.length w) = m) by (rewrite <- M; field; assumption). rewrite EM, <- V, T.
      replace ((qn (List.length w) - 1) * v / (qn (List.length w) - 1)) with v by (field; assumption). assumption.
  Qed.
  Lemma entropy_variables s kw X vars : fuzzy_vars cut show show_cell s "entropy" kw = Ok (X, map Some vars) -> NoDup (tb_cols X) -> (2 <= List.length (tb_rows X))%nat ->
    exists num cat, z_num kw = Some num /\ z_cat kw = Some cat /\ variables_of show show_cell X num cat vars /\
      forall y, nb_y s = Some y -> peaks_of show X y (or_default None (z_th kw)) cat vars.
  Proof.
    intros H ND L2. destruct (@vars_inv _ _ _ _ _ H) as (y & num & cat & cols & pts & disc & HX & HY & HN & HC & FN & LY & L1 & NE & FP & FD' & G). exists num, cat. split; [assumption|]. split; [assumption|].
    destruct (order_spec ND) as (O1 & O2 & O3).
    assert (KP : map fst pts = num).
    { clear -FP FN. assert (map fst pts = map fst cols) as ->. { clear FN. induction FP as [|? ? ? ? [A _]]; cbn; [reflexivity|]. congruence. } clear FP. induction FN as [|? ? ? ? [A _]]; cbn; [reflexivity|]. congruence. }
    assert (KD : map fst disc = cat). { clear -FD'. induction FD' as [|? ? ? ? [A _]]; cbn; [reflexivity|]. congruence. }
    assert (CN : forall c qs, In (c, qs) cols -> In c num /\ exists col, tb_column X c = Ok col /\ col = map CNum qs /\ List.length qs = List.length (tb_rows X)).
    { intros c qs I. apply In_nth_error in I. destruct I as [i I]. destruct (Forall2_nth_r FN i I) as (c' & I' & A & col & B & C). cbn in A. subst c'. split; [eapply nth_error_In; eassumption|]. exists col. split; [assumption|]. assert (D := numbers_spec _ C). split; [assumption|]. cbn [snd] in D.
      unfold tb_column in B. match type of B with bind ?r _ = _ => destruct r as [j|]; [|discriminate] end. cbn [bind] in B. apply column_length in B. rewrite D in B. rewrite map_length in B. assumption. }
    assert (PG : forall c p, In (c, p) pts -> exists qs, In (c, qs) cols /\ good_points qs p /\
      (nearly_constant qs -> StronglySorted Qclt p /\ forall x, In x p <-> In x qs) /\ (~ nearly_constant qs -> entropy_points 0 (or_default None (z_th kw)) (combine qs y) = Ok p)).
    { intros c p I. apply In_nth_error in I. destruct I as [i I]. destruct (Forall2_nth_r FP i I) as ([c' qs] & I' & A & B). cbn in A. subst c'. cbn [snd] in B. apply nth_error_In in I'. exists qs. split; [assumption|].
      destruct (CN _ _ I') as (_ & col & TB & ECol & L). split.
      - eapply entropy_good; [| | |exact B]; [lia|congruence|]. intro N. destruct (small_std qs) eqn:Q; [|reflexivity]. exfalso. apply N. apply in_map_iff. exists (c, qs). split; [reflexivity|]. apply filter_In. auto.
      - unfold points_of in B. match type of B with context[memb c ?pv] => assert (PV : memb c pv = small_std qs) end.
        { destruct (small_std qs) eqn:Q.
          - apply memb_In. apply in_map_iff. exists (c, qs). split; [reflexivity|]. apply filter_In. auto.
          - apply memb_not_In. intro J. apply in_map_iff in J. destruct J as ([c' qs'] & EC & J). cbn [fst] in EC. subst c'. apply filter_In in J. destruct J as [J S]. cbn [snd] in S.
            destruct (CN _ _ J) as (_ & col' & TB' & ECol' & _). assert (qs' = qs); [|congruence]. rewrite TB in TB'. assert (EE : map CNum qs = map CNum qs') by congruence.
            clear - EE. revert qs' EE. induction qs as [|u qs IH]; intros [|w qs'] EE; try discriminate; [reflexivity|]. cbn [map] in EE. assert (u = w) by congruence. subst w. f_equal. apply IH. congruence. }
        rewrite PV in B. assert (SP := @small_std_spec qs ltac:(lia)). destruct (small_std qs).
        + assert (NC := proj1 SP eq_refl). assert (p = qunique qs) by congruence. subst p. split; [intros _; split; [apply qunique_sorted|intro x; apply qunique_In]|contradiction].
        + split; [intro NC; apply SP in NC; discriminate|]. intros _. exact B. }
    assert (IN : forall k, In k (dkeys (dict_of pts)) \/ In k (dkeys (dict_of disc)) -> In k (dkeys (order_of (tb_cols X)))).
    { intros k I. rewrite O2. assert (C : exists col, tb_column X k = Ok col).
      { destruct I as [I|I]; rewrite dict_of_keys_In in I.
        - rewrite KP in I. apply In_nth_error in I. destruct I as [i I]. destruct (Forall2_nth FN i I) as (cq & _ & _ & col & C & _). eauto.
        - rewrite KD in I. apply In_nth_error in I. destruct I as [i I]. destruct (Forall2_nth FD' i I) as (cq & _ & _ & col & C & _). eauto. }
      destruct C as [col C]. unfold tb_column in C. clear -C. destruct (index_of k (tb_cols X)) as [i|] eqn:E; [|discriminate]. clear C. revert i E. induction (tb_cols X) as [|c l IH]; intros i E; [discriminate|]. cbn [index_of] in E.
      unfold eqb in E. destruct (eq_dec k c) as [->|N]; [left; reflexivity|]. destruct (index_of k l) as [j|]; [|discriminate]. right. eapply IH. reflexivity. }
    destruct (@C11_variables show show_cell (dict_of pts) (dict_of disc) (order_of (tb_cols X)) None None "point_set"%string) as (vs' & E' & LV & SP).
    { intros k i E. rewrite O1. apply O3 in E. apply nth_error_Some. congruence. }
    { intros k k' i E1 E2. apply O3 in E1. apply O3 in E2. congruence. }
    { intros name points I. apply In_dict_of in I. destruct (PG _ _ I) as (qs & _ & GP & _). exact (good_sets name GP). }
    { apply dict_of_nodup_keys. } { apply dict_of_nodup_keys. } { exact IN. }
    rewrite G in E'. injection E' as <-. rewrite map_length in LV.
    assert (NM : forall i v, nth_error vars i = Some v -> nth_error (tb_cols X) i = Some (fv_name v) /\
      (In (fv_name v) cat -> exists values, In (fv_name v, values) (dict_of disc) /\ fv_sets v = discrete_sets (zip (map show_cell values) values)) /\
      (~ In (fv_name v) cat -> exists p sets, In (fv_name v, p) (dict_of pts) /\ continuous_sets "point_set" (zip (map show p) p) = Ok sets /\ fv_sets v = map FC sets)).
    { intros i v I. assert (I' : nth_error (map Some vars) i = Some (Some v)) by (apply map_nth_error; assumption).
      destruct (nth_error (tb_cols X) i) as [c|] eqn:EC. 2:{ apply nth_error_None in EC. assert (i < List.length vars)%nat by (apply nth_error_Some; congruence). lia. }
      assert (OC := proj2 (O3 c i) EC). destruct (SP c i OC) as (S1 & S2 & S3).
      destruct (dget c (dict_of disc)) as [values|] eqn:DC.
      - assert (J := dget_In _ _ DC). specialize (S1 values J). rewrite I' in S1. injection S1 as ->. cbn [fv_name fv_sets]. split; [reflexivity|]. split.
        + intros _. exists values. split; [assumption|reflexivity].
        + intro N. exfalso. apply N. rewrite <- KD. apply dict_of_keys_In. eapply dget_Some_key. eassumption.
      - assert (ND' : ~ In c (dkeys (dict_of disc))) by (apply dget_None; assumption).
        destruct (dget c (dict_of pts)) as [p|] eqn:PC.
        + assert (J := dget_In _ _ PC). destruct (S2 p J ND') as (sets & C1 & C2). rewrite I' in C2. injection C2 as ->. cbn [fv_name fv_sets]. split; [reflexivity|]. split.
          * intro J'. exfalso. apply ND'. apply dict_of_keys_In. rewrite KD. assumption.
          * intros _. exists p, sets. split; [assumption|]. split; [exact C1|reflexivity].
        + assert (NP : ~ In c (dkeys (dict_of pts))) by (apply dget_None; assumption). rewrite (S3 NP ND') in I'. discriminate. }
    assert (PK : peaks_of show X y (or_default None (z_th kw)) cat vars).
    { intros i v qs EV EC NC. destruct (NM i v EV) as (N1 & _ & N3). destruct (N3 NC) as (p & sets & P1 & P2 & P3). apply In_dict_of in P1. destruct (PG _ _ P1) as (qs' & Q1 & _ & Q2 & Q3).
      destruct (CN _ _ Q1) as (_ & col' & M2 & M3 & _). assert (TC := tb_column_nth _ _ ND N1). rewrite EC in TC. assert (EE : map CNum qs = map CNum qs') by congruence.
      assert (qs = qs'). { clear - EE. revert qs' EE. induction qs as [|u qs IH]; intros [|w qs'] EE; try discriminate; [reflexivity|]. cbn [map] in EE. assert (u = w) by congruence. subst w. f_equal. apply IH. congruence. }
      subst qs'. exists p, sets. split; [assumption|]. split; [assumption|]. split; assumption. }
    split; [|intros y' Hy'; assert (y' = y) by congruence; subst y'; exact PK].
    split.
    - apply nth_error_ext; [rewrite map_length; lia|]. intros i _. destruct (nth_error vars i) as [v|] eqn:E.
      + rewrite (map_nth_error _ _ _ E). symmetry. apply NM. assumption.
      + rewrite nth_error_map, E. symmetry. apply nth_error_None. apply nth_error_None in E. cbn. lia.
    - intros i v col EV EC. destruct (NM i v EV) as (N1 & N2 & N3). assert (TC := tb_column_nth _ _ ND N1). rewrite EC in TC. split.
      + intro I. destruct (N2 I) as (values & V1 & V2). apply In_dict_of in V1. apply In_nth_error in V1. destruct V1 as [j V1]. destruct (Forall2_nth_r FD' j V1) as (c' & J & A & col' & B & C). cbn in A, C. subst c'. rewrite TC in B. injection B as <-.
        exists values. subst values. split; [apply appearing_NoDup|]. split; [intro x; apply appearing_In|]. rewrite V2. unfold discrete_sets. clear. generalize (appearing col) as w. induction w as [|x w IH]; [reflexivity|]. cbn. f_equal. exact IH.
      + intro I. destruct (N3 I) as (p & sets & P1 & P2 & P3). apply In_dict_of in P1. destruct (PG _ _ P1) as (qs & Q1 & (f & r & -> & Q2 & Q3 & Q4) & _). destruct (CN _ _ Q1) as (M1 & col' & M2 & M3 & _). rewrite TC in M2. injection M2 as <-. split; [assumption|].
        exists qs, f, r, sets. split; [assumption|]. split; [assumption|]. split; [assumption|]. split; [assumption|]. split; assumption.
  Qed.
End Vars.

Lemma continuous_names (labels : list string) pts sets : List.length labels = List.length pts ->
  continuous_sets "point_set" (zip labels pts) = Ok sets -> map c_name sets = labels.
Proof.
  intros L H. destruct labels as [|a [|b labels]]; destruct pts as [|p [|q pts]]; try discriminate L; [discriminate H| |].
  - injection H as <-. reflexivity.
  - set (d := zip (a :: b :: labels) (p :: q :: pts)) in *.
    assert (LD : List.length d = List.length (a :: b :: labels)) by (unfold d, zip; rewrite combine_length, L; apply Nat.min_id).
    destruct (@C03_sets "point_set"%string d) as (sets' & E & LS & N); [rewrite LD; cbn; lia|]. rewrite H in E. injection E as <-.
    assert (M : map fst d = a :: b :: labels). { unfold d, zip. clear -L. revert L. generalize (a :: b :: labels) as u, (p :: q :: pts) as w. induction u as [|x u IH]; intros [|y w] L; cbn in *; try discriminate; [reflexivity|]. f_equal. apply IH. lia. }
    rewrite <- M. apply nth_error_ext; [rewrite !map_length; assumption|]. intros i I. rewrite map_length in I. destruct (nth_error d i) as [[n x]|] eqn:ED.
    + destruct (N i n x ED) as (s & S1 & S2 & _). rewrite !nth_error_map, S1, ED. cbn. rewrite S2. reflexivity.
    + apply nth_error_None in ED. lia.
Qed.
Definition injective {A B} (f : A -> B) : Prop := forall a b, f a = f b -> a = b.
Lemma NoDup_map_inj A B (f : A -> B) l : injective f -> NoDup l -> NoDup (map f l).
Proof.
  intros I. induction 1 as [|x l N D IH]; cbn; constructor; [|assumption]. intro H. apply in_map_iff in H. destruct H as (y & E & J). apply I in E. subst. contradiction.
Qed.
Lemma sorted_NoDup (l : list Qc) : StronglySorted Qclt l -> NoDup l.
Proof.
  induction 1 as [|x l S IH F]; constructor; [|assumption]. intro I. rewrite Forall_forall in F. specialize (F x I). apply Qclt_not_eq in F. congruence.
Qed.
Lemma variables_nth show show_cell X num cat vars i v : variables_of show show_cell X num cat vars -> (forall row, In row (tb_rows X) -> (List.length (tb_cols X) <= List.length row)%nat) ->
  nth_error vars i = Some v -> exists col, column (tb_rows X) i = Ok col /\ List.length col = List.length (tb_rows X) /\ forall r row, nth_error (tb_rows X) r = Some row -> nth_error col r = nth_error row i.
Proof.
  intros [V _] W H. apply column_ok. intros row I. specialize (W row I). assert (i < List.length vars)%nat by (apply nth_error_Some; congruence). rewrite <- V, map_length in W. lia.
Qed.
(** names of the sets *)
Lemma variables_distinct show show_cell X num cat vars : injective show -> injective show_cell -> NoDup (tb_cols X) -> tb_rows X <> [] -> (forall row, In row (tb_rows X) -> (List.length (tb_cols X) <= List.length row)%nat) ->
  variables_of show show_cell X num cat vars -> distinct_names vars /\ forall v, In v vars -> fv_sets v <> [].
Proof.
  intros IS IC ND NE W V. assert (K : forall v, In v vars -> NoDup (map fs_name (fv_sets v)) /\ fv_sets v <> []).
  { intros v I. apply In_nth_error in I. destruct I as [i I]. destruct (@variables_nth _ _ _ _ _ _ _ _ V W I) as (col & C & LC & _). destruct (proj2 V i v col I C) as [V1 V2].
    destruct (in_dec string_dec (fv_name v) cat) as [J|J].
    - destruct (V1 J) as (values & N & IV & ->). split.
      + rewrite map_map. cbn [fs_name]. apply NoDup_map_inj; assumption.
      + destruct col as [|x col]; [destruct (tb_rows X); [congruence|discriminate]|]. destruct values; [|discriminate]. exfalso. apply (proj2 (IV x)). left. reflexivity.
    - destruct (V2 J) as (_ & qs & f & r & sets & _ & S & _ & _ & E & ->). assert (M := continuous_names (map show (f :: r)) (f :: r) (map_length _ _) E). split.
      + rewrite map_map. cbn [fs_name]. change (NoDup (map c_name sets)). rewrite M. apply NoDup_map_inj; [assumption|]. apply sorted_NoDup. assumption.
      + destruct sets; [discriminate M|discriminate]. }
  split; [split; [rewrite (proj1 V); assumption|intros v I; apply K; assumption]|intros v I; apply K; assumption].
Qed.
(** the degrees of a row's value in the sets of a variable *)
Lemma variables_degrees show show_cell X num cat vars r row i v x : variables_of show show_cell X num cat vars -> (forall row, In row (tb_rows X) -> (List.length (tb_cols X) <= List.length row)%nat) ->
  nth_error (tb_rows X) r = Some row -> nth_error vars i = Some v -> nth_error row i = Some x ->
  exists ds, Forall2 (fun s m => membership s x = Ok m) (fv_sets v) ds /\ (forall d, In d ds -> 0 <= d /\ d <= 1) /\
    (qsum ds = 1 \/ (qsum ds = 0 /\ ~ In (fv_name v) cat /\ exists q, x = CNum q /\ forall s, In s (fv_sets v) -> exists c, s = FC c /\ pb c < q)).
Proof.
  intros V W HR HV HX. destruct (@variables_nth _ _ _ _ _ _ _ _ V W HV) as (col & C & LC & NC). destruct (proj2 V i v col HV C) as [V1 V2].
  assert (IX : In x col) by (apply (nth_error_In col r); rewrite (NC r row HR); assumption).
  destruct (in_dec string_dec (fv_name v) cat) as [J|J].
  - destruct (V1 J) as (values & N & IV & E). exists (map (fun y => if eq_dec x y then 1 else 0) values). rewrite E. split; [|split].
    + clear. induction values as [|y values IH]; cbn [map]; constructor; [|exact IH]. apply P_FuzzySet.discrete_degree.
    + intros d I. apply in_map_iff in I. destruct I as (y & <- & _). destruct (eq_dec x y); split; unfold Qcle; cbn; try discriminate.
    + left. assert (F : Forall2 (fun s m => membership s x = Ok m) (discrete_sets (map (fun y => (show_cell y, y)) values)) (map (fun y => if eq_dec x y then 1 else 0) values)).
      { clear. unfold discrete_sets. induction values as [|y values IH]; cbn [map]; constructor; [|exact IH]. cbn [fst snd]. rewrite P_FuzzySet.discrete_degree. reflexivity. }
      apply P_FuzzySet.discrete_sum in F; [|rewrite map_map, map_id; assumption]. apply F. rewrite map_map, map_id. apply IV. assumption.
  - destruct (V2 J) as (_ & qs & f & rest & sets & CE & S & IP & MN & E & ES). rewrite CE in IX. apply in_map_iff in IX. destruct IX as (q & <- & IQ).
    destruct rest as [|g rest].
    + cbn in E. injection E as <-. rewrite ES. cbn [map]. exists [if qleb q f then 1 else 0]. assert (FQ := MN q IQ).
      assert (HM : membership (FC (mkC (show f) f f f true)) (CNum q) = Ok (if qleb q f then 1 else 0)).
      { rewrite P_FuzzySet.membership_valid by (split; apply Qcle_refl). f_equal. unfold P_FuzzySet.tric. cbn [pa pb pc]. destruct (qleb q f) eqn:QF.
        - apply qleb_le in QF. assert (q = f) by (apply Qcle_antisym; assumption). subst q. apply P_FuzzySet.tri_peak.
        - apply qleb_gt in QF. apply P_FuzzySet.tri_out; [apply Qcle_refl|apply Qcle_refl| |right; apply Qclt_le_weak; assumption]. intro Z. subst q. apply Qclt_not_eq in QF. congruence. }
      split; [constructor; [exact HM|constructor]|]. destruct (qleb q f) eqn:QF.
      * split; [intros d [<-|[]]; split; unfold Qcle; cbn; discriminate|]. left. cbn. ring.
      * split; [intros d [<-|[]]; split; unfold Qcle; cbn; discriminate|]. right. split; [cbn; ring|]. split; [assumption|]. exists q. split; [reflexivity|]. intros s [<-|[]]. eexists. split; [reflexivity|]. cbn [pb]. apply qleb_gt. assumption.
    + set (d := zip (map show (f :: g :: rest)) (f :: g :: rest)) in *.
      assert (SD : map snd d = f :: g :: rest). { unfold d, zip. clear. generalize (f :: g :: rest) as w. induction w as [|y w IH]; cbn; [reflexivity|]. f_equal. exact IH. }
      assert (LD : (2 <= List.length d)%nat) by (rewrite <- (map_length snd), SD; cbn; lia).
      destruct (@C02_all "point_set"%string d q LD) as (sets' & ds & E' & F & S1 & _ & S0); [rewrite SD; assumption|]. rewrite E in E'. injection E' as <-. rewrite SD in S1, S0.
      exists ds. rewrite ES. split; [|split].
      * clear -F. induction F; cbn; constructor; assumption.
      * intros m I. apply In_nth_error in I. destruct I as [k I]. destruct (Forall2_nth_r F k I) as (s & _ & M). apply P_FuzzySet.membership_Ok in M. destruct M as [[A B] ->]. apply P_FuzzySet.tri_01; assumption.
      * destruct (Forall_Exists_dec (fun p => p < q) (fun p => ltac:(destruct (qltb p q) eqn:Q; [left; apply qltb_lt; assumption|right; intro Z; apply qltb_lt in Z; congruence])) (f :: g :: rest)) as [A|A].
        -- right. rewrite Forall_forall in A. specialize (S0 (or_intror A)). split; [|split; [assumption|]].
           ++ clear -S0. induction S0 as [|m l -> _ IH]; [reflexivity|]. rewrite qsum_cons, IH. ring.
           ++ exists q. split; [reflexivity|]. intros s I. apply in_map_iff in I. destruct I as (c & <- & I). exists c. split; [reflexivity|]. apply A.
              destruct (@C03_sets "point_set"%string d LD) as (sets' & E' & LS & N). rewrite E in E'. injection E' as <-. apply In_nth_error in I. destruct I as [k I].
              destruct (nth_error d k) as [[n y]|] eqn:ED. 2:{ apply nth_error_None in ED. assert (k < List.length sets)%nat by (apply nth_error_Some; congruence). lia. }
              destruct (N k n y ED) as (c' & I' & _ & PB & _). rewrite I in I'. injection I' as <-. rewrite PB, <- SD. apply in_map_iff. exists (n, y). split; [reflexivity|]. eapply nth_error_In. eassumption.
        -- left. apply Exists_exists in A. destruct A as (p & I & N). apply S1.
           ++ exists f. split; [left; reflexivity|auto].
           ++ exists p. split; [assumption|]. apply Qcnot_lt_le. assumption.
Qed.
(** the membership of one instance *)
Lemma single_membership vars row im : distinct_names vars -> (forall v, In v vars -> fv_sets v <> []) -> dataset_membership [row] vars = Ok im ->
  readable vars [row] /\ row_membership vars row (single im) /\ proper (single im).
Proof.
  intros DN NE H. destruct (@dataset_membership_exact _ _ _ DN H) as [-> R]. split; [|split].
  - intros r I a v s Hv Is. eapply R; eassumption.
  - intros a v i s Hv Hs. assert (G := @exact_mem_get vars [row] a v (proj1 DN) Hv).
    assert (GS : dget (fv_name v) (single (exact_mem vars [row])) = Some (map (fun sl => (fst sl, nth 0 (snd sl) 0)) (exact_sets vars [row] a v))).
    { apply dget_nodup.
      - unfold dkeys, single, exact_mem. rewrite !map_map. cbn [fst]. rewrite (map_enumerate fv_name). apply DN.
      - unfold single. apply in_map_iff. exists (fv_name v, exact_sets vars [row] a v). split; [reflexivity|]. apply dget_In. assumption. }
    eexists. split; [exact GS|]. apply dget_nodup.
    + unfold dkeys, exact_sets. rewrite !map_map. cbn [fst]. rewrite (map_enumerate fs_name). apply DN. eapply nth_error_In. eassumption.
    + unfold exact_sets. rewrite map_map. apply in_map_iff. exists (i, s). cbn [fst snd map nth]. split; [reflexivity|]. apply enumerate_In. assumption.
  - split.
    + unfold single, exact_mem. rewrite !map_map. cbn [fst]. rewrite (map_enumerate fv_name). apply DN.
    + intros f d I. unfold single, exact_mem in I. rewrite map_map in I. apply in_map_iff in I. destruct I as ([a v] & E & I). cbn [fst snd] in E. injection E as <- <-. apply enumerate_In in I. assert (IV := nth_error_In _ _ I). split.
      * unfold exact_sets. rewrite map_map. assert (N := NE v IV). destruct (fv_sets v); [congruence|discriminate].
      * unfold exact_sets. rewrite !map_map. cbn [fst]. rewrite (map_enumerate fs_name). apply DN. assumption.
Qed.
Lemma all_some_map A (l : list A) : all_some (map Some l) = Ok l.
Proof. unfold all_some. induction l as [|x l IH]; [reflexivity|]. cbn. rewrite IH. reflexivity. Qed.
