(** * Proofs about neighbourhoods: fuzzify succeeds *)
From Verif Require Import Prelude M_Fuzzy M_Discretize P_FuzzySet P_Discretize M_Rule S_Rule M_FDT S_FDT P_FDT P_FDT2 M_Counterfactual S_Counterfactual P_Counterfactual M_Explainer P_FuzzyVar P_Metrics M_Neighborhood S_Neighborhood P_Neighborhood P_Neighborhood2.
From Coq Require Import Reals.
Set Implicit Arguments.
Open Scope Qc_scope.

Lemma variables_readable show show_cell X num cat vars rows : variables_of show show_cell X num cat vars ->
  (forall row, In row (tb_rows X) -> (List.length (tb_cols X) <= List.length row)%nat) ->
  (forall row, In row rows -> fits (tb_cols X) cat row) -> readable vars rows /\ wide vars rows.
Proof.
  intros V W F. assert (LV : List.length vars = List.length (tb_cols X)) by (rewrite <- (proj1 V), map_length; reflexivity). split.
  - intros row I a v s Hv Is. destruct (F row I) as [L N]. assert (LA : (a < List.length vars)%nat) by (apply nth_error_Some; congruence).
    destruct (@variables_nth _ _ _ _ _ _ _ _ V W Hv) as (col & C & _). destruct (proj2 V a v col Hv C) as [V1 V2].
    assert (CA : nth_error (tb_cols X) a = Some (fv_name v)) by (rewrite <- (proj1 V); apply map_nth_error; assumption).
    destruct (in_dec string_dec (fv_name v) cat) as [J|J].
    + destruct (nth_error row a) as [x|] eqn:E; [|apply nth_error_None in E; lia]. destruct (V1 J) as (values & _ & _ & S). rewrite S in Is. apply in_map_iff in Is. destruct Is as (y & <- & _). exists x. eexists. split; [reflexivity|apply discrete_degree].
    + destruct (N a _ CA J) as [q E]. destruct (V2 J) as (_ & qs & f & r & sets & _ & SS & _ & _ & ES & S). rewrite S in Is. apply in_map_iff in Is. destruct Is as (c & <- & Is). exists (CNum q).
      assert (VC : P_FuzzySet.valid c).
      { apply (@C03_valid "point_set"%string (zip (map show (f :: r)) (f :: r)) sets c); [|assumption|assumption]. replace (map snd (zip (map show (f :: r)) (f :: r))) with (f :: r); [apply sorted_lt_le; assumption|].
        clear. unfold zip. generalize (f :: r) as w. induction w as [|y w IH]; cbn; [reflexivity|]. f_equal. exact IH. }
      eexists. split; [assumption|apply membership_valid; assumption].
  - intros row I. destruct (F row I) as [L _]. lia.
Qed.

Section Total.
  Variables (cut : string -> list Qc -> Z -> option (list Qc * Qc) * option (list Qc * Qc)) (show : Qc -> string) (show_cell : cell -> string).
  Lemma entropy_total (y : list Z) th pv (name : string) qs sets : (2 <= List.length qs)%nat -> List.length qs = List.length y -> (~ In name pv -> small_std qs = false) ->
    exists p, points_of cut "entropy" y sets th pv (name, qs) = Ok p.
  Proof.
    intros L LY NP. unfold points_of. destruct (memb name pv) eqn:M; [eauto|].
    change (eqb "entropy"%string "entropy"%string) with true. cbv iota.
    assert (NI : ~ In name pv) by (intro I; rewrite (proj2 (@memb_In _ _ name pv) I) in M; discriminate). assert (D := @varied qs L (NP NI)).
    assert (F : map fst (zip qs y) = qs). { clear -LY. unfold zip. revert y LY. induction qs as [|q qs IH]; intros [|c y] L; cbn in *; try discriminate; [reflexivity|]. f_equal. apply IH. lia. }
    rewrite <- F in D. destruct (C14_all 0 th (zip qs y) D) as (m & r & E & _). rewrite E. eauto.
  Qed.
  Lemma numbers_ok col : (forall x, In x col -> exists q, x = CNum q) -> exists qs, numbers col = Ok qs.
  Proof. intro H. apply mapM_total. intros x I. destruct (H x I) as [q ->]. eauto. Qed.

  Lemma fuzzy_vars_total s kw X y num cat :
    nb_X s = Some X -> nb_y s = Some y -> nb_Xy s = true -> z_num kw = Some num -> z_cat kw = Some cat -> z_verbose kw = false ->
    NoDup (tb_cols X) -> (2 <= List.length (tb_rows X))%nat -> List.length (tb_rows X) = List.length y -> num <> [] ->
    (forall c, In c num \/ In c cat <-> In c (tb_cols X)) ->
    (forall row, In row (tb_rows X) -> List.length row = List.length (tb_cols X) /\ forall i c, nth_error (tb_cols X) i = Some c -> In c num -> exists q, nth_error row i = Some (CNum q)) ->
    exists vars, fuzzy_vars cut show show_cell s "entropy" kw = Ok (X, map Some vars).
  Proof.
    intros HX HY HXY HN HC HV ND L2 LY NE COV ROWS.
    assert (COL : forall c, In c (tb_cols X) -> exists i col, nth_error (tb_cols X) i = Some c /\ tb_column X c = Ok col /\ List.length col = List.length (tb_rows X) /\ (In c num -> forall x, In x col -> exists q, x = CNum q)).
    { intros c I. apply In_nth_error in I. destruct I as [i I]. destruct (@column_ok (tb_rows X) i) as (col & C & LC & NC).
      { intros row IR. destruct (ROWS row IR) as [L _]. rewrite L. apply nth_error_Some. congruence. }
      exists i, col. split; [assumption|]. split; [rewrite (tb_column_nth _ _ ND I); assumption|]. split; [assumption|]. intros J x IX. apply In_nth_error in IX. destruct IX as [r IX].
      assert (r < List.length (tb_rows X))%nat by (rewrite <- LC; apply nth_error_Some; congruence). destruct (nth_error (tb_rows X) r) as [row|] eqn:ER; [|apply nth_error_None in ER; lia].
      rewrite (NC r row ER) in IX. destruct (ROWS row (nth_error_In _ _ ER)) as [_ Q]. destruct (Q i c I J) as [q Q']. exists q. congruence. }
    unfold fuzzy_vars. rewrite HX, HY, HXY, HN, HC, HV. change ((eqb "entropy"%string "equal_width"%string || eqb "entropy"%string "equal_freq"%string)) with false. cbn [andb].
    destruct (mapM_total (fun c => do col <- tb_column X c; do q <- numbers col; Ok (c, q)) num) as [cols EC].
    { intros c I. destruct (COL c) as (i & col & _ & C & _ & NQ); [apply COV; auto|]. rewrite C. cbn [bind]. destruct (numbers_ok col (NQ I)) as [qs ->]. cbn [bind]. eauto. }
    rewrite EC. cbn [bind].
    assert (CN : forall c qs, In (c, qs) cols -> In c num /\ List.length qs = List.length (tb_rows X)).
    { intros c qs I. apply mapM_ok in EC. apply In_nth_error in I. destruct I as [i I]. destruct (Forall2_nth_r EC i I) as (c' & I' & A).
      assert (IN := nth_error_In _ _ I'). destruct (COL c') as (j & col & _ & C & LC & _); [apply COV; auto|]. rewrite C in A. cbn [bind] in A. destruct (numbers col) as [q|] eqn:Q; [|discriminate]. cbn [bind] in A. injection A as -> ->. split; [assumption|].
      apply numbers_spec in Q. rewrite Q, map_length in LC. assumption. }
    unfold get_fuzzy_points. assert (LC : List.length cols = List.length num) by (eapply mapM_length; eassumption).
    assert (B : (Nat.eqb (List.length cols) 0 || Nat.eqb (List.length (tb_rows X)) 0 || negb (Nat.eqb (List.length (tb_rows X)) (List.length y)))%bool = false).
    { apply orb_false_intro; [apply orb_false_intro|].
      - apply Nat.eqb_neq. destruct num; [congruence|]. rewrite LC. discriminate.
      - apply Nat.eqb_neq. lia.
      - apply negb_false_iff, Nat.eqb_eq. assumption. }
    rewrite B. change (negb (memb "entropy"%string ["equal_freq"; "equal_width"; "entropy"]%string)) with false. cbv iota.
    set (pv := map fst (filter (fun cq : string * list Qc => small_std (snd cq)) cols)).
    destruct (mapM_total (fun nc : string * list Qc => do p <- points_of cut "entropy" y (or_default 0%Z (z_sets kw)) (or_default None (z_th kw)) pv nc; Ok (fst nc, p)) cols) as [pts EP].
    { intros [c qs] I. destruct (CN c qs I) as [_ L]. destruct (@entropy_total y (or_default None (z_th kw)) pv c qs (or_default 0%Z (z_sets kw))) as [p ->]; [lia|lia| |cbn [bind]; eauto].
      intro N. destruct (small_std qs) eqn:Q; [|reflexivity]. exfalso. apply N. unfold pv. apply in_map_iff. exists (c, qs). split; [reflexivity|]. apply filter_In. auto. }
    rewrite EP. cbn [bind].
    destruct (mapM_total (fun c => do col <- tb_column X c; Ok (c, appearing col)) cat) as [disc ED].
    { intros c I. destruct (COL c) as (i & col & _ & C & _); [apply COV; auto|]. rewrite C. cbn [bind]. eauto. }
    rewrite ED. cbn [bind]. fold (order_of (tb_cols X)).
    assert (KP : map fst pts = num).
    { assert (K1 : map fst pts = map fst cols). { apply mapM_ok in EP. clear -EP. induction EP as [|nc np l l' A F IH]; cbn; [reflexivity|]. rewrite IH. f_equal. match type of A with bind ?r _ = _ => destruct r; [|discriminate] end. injection A as <-. reflexivity. }
      rewrite K1. apply mapM_ok in EC. clear -EC. induction EC as [|c cq l l' A F IH]; cbn; [reflexivity|]. rewrite IH. f_equal. destruct (tb_column X c); [|discriminate]. cbn [bind] in A. destruct (numbers a); [|discriminate]. injection A as <-. reflexivity. }
    assert (KD : map fst disc = cat).
    { apply mapM_ok in ED. clear -ED. induction ED as [|c cq l l' A F IH]; cbn; [reflexivity|]. rewrite IH. f_equal. destruct (tb_column X c); [|discriminate]. injection A as <-. reflexivity. }
    destruct (order_spec ND) as (O1 & O2 & O3).
    destruct (@C11_variables show show_cell (dict_of pts) (dict_of disc) (order_of (tb_cols X)) None None "point_set"%string) as (vs & E' & LV & SP).
    { intros k i E. rewrite O1. apply O3 in E. apply nth_error_Some. congruence. }
    { intros k k' i E1 E2. apply O3 in E1. apply O3 in E2. congruence. }
    { intros name points I. apply In_dict_of in I. apply In_nth_error in I. destruct I as [i I]. apply mapM_ok in EP. destruct (Forall2_nth_r EP i I) as ([c qs] & I' & A). cbn [fst] in A.
      match type of A with bind ?r _ = _ => destruct r as [p|] eqn:Q; [|discriminate] end. cbn [bind] in A. injection A as -> ->. apply nth_error_In in I'. destruct (CN _ _ I') as [_ L].
      assert (GP : good_points qs points). { eapply entropy_good; [| | |exact Q]; [lia|lia|]. intro N. destruct (small_std qs) eqn:Q'; [|reflexivity]. exfalso. apply N. unfold pv. apply in_map_iff. exists (name, qs). split; [reflexivity|]. apply filter_In. auto. }
      exact (good_sets show name GP). }
    { apply dict_of_nodup_keys. } { apply dict_of_nodup_keys. }
    { intros k I. rewrite O2. apply COV. rewrite !dict_of_keys_In, KP, KD in I. assumption. }
    rewrite E'. cbn [bind].
    assert (AS : exists vars, vs = map Some vars).
    { assert (A : forall i o, nth_error vs i = Some o -> exists v, o = Some v).
      { intros i o I. destruct (nth_error (tb_cols X) i) as [c|] eqn:EI.
        - destruct (SP c i (proj2 (O3 c i) EI)) as (S1 & S2 & _). assert (J := proj2 (COV c) (nth_error_In _ _ EI)).
          destruct (dget c (dict_of disc)) as [values|] eqn:DC.
          + rewrite (S1 values (dget_In _ _ DC)) in I. injection I as <-. eauto.
          + assert (NDc : ~ In c (dkeys (dict_of disc))) by (apply dget_None; assumption).
            destruct J as [J|J]; [|exfalso; apply NDc; apply dict_of_keys_In; rewrite KD; assumption].
            destruct (dget_ex c (dict_of pts)) as [p PC]; [apply dict_of_keys_In; rewrite KP; assumption|].
            destruct (S2 p (dget_In _ _ PC) NDc) as (sets & _ & Q). rewrite Q in I. injection I as <-. eauto.
        - apply nth_error_None in EI. assert (i < List.length vs)%nat by (apply nth_error_Some; congruence). lia. }
      clear -A. induction vs as [|o vs IH]; [exists []; reflexivity|]. destruct (A 0%nat o eq_refl) as [v ->]. destruct IH as [vars ->]; [intros i o I; apply (A (S i)); assumption|]. exists (v :: vars). reflexivity. }
    destruct AS as [vars ->]. eauto.
  Qed.

  Lemma fuzzify_total k inst s kw X y dec num cat :
    nb_X s = Some X -> nb_y s = Some y -> nb_Xy s = true -> nb_decoded s = Some dec -> z_num kw = Some num -> z_cat kw = Some cat -> z_verbose kw = false -> (k = Sampling -> z_inst kw = None) ->
    NoDup (tb_cols X) -> (2 <= List.length (tb_rows X))%nat -> List.length (tb_rows X) = List.length y -> num <> [] ->
    (forall c, In c num \/ In c cat <-> In c (tb_cols X)) ->
    (forall row, In row (tb_rows X) -> List.length row = List.length (tb_cols X) /\ forall i c, nth_error (tb_cols X) i = Some c -> In c num -> exists q, nth_error row i = Some (CNum q)) ->
    fits (tb_cols X) cat dec -> (k = Lore -> z_inst kw <> Some false -> fits (tb_cols X) cat inst) ->
    exists s', fuzzify_of cut show show_cell inst k s "entropy" kw = (s', None).
  Proof.
    intros HX HY HXY HD HN HC HV HK ND L2 LY NE COV ROWS FD' FI.
    destruct (@fuzzy_vars_total s kw X y num cat HX HY HXY HN HC HV ND L2 LY NE COV ROWS) as [vars FV].
    destruct (@entropy_variables _ _ _ _ _ _ _ FV ND L2) as (num' & cat' & HN' & HC' & V & _). rewrite HN in HN'. rewrite HC in HC'. injection HN' as <-. injection HC' as <-.
    assert (W : forall row, In row (tb_rows X) -> (List.length (tb_cols X) <= List.length row)%nat) by (intros row I; rewrite (proj1 (ROWS row I)); lia).
    assert (FR : forall row, In row (tb_rows X) -> fits (tb_cols X) cat row).
    { intros row I. destruct (ROWS row I) as [L Q]. split; [assumption|]. intros i c EI NC. apply (Q i c EI). destruct (proj2 (COV c) (nth_error_In _ _ EI)); [assumption|contradiction]. }
    assert (M : forall rows, (forall row, In row rows -> fits (tb_cols X) cat row) -> exists dm, dataset_membership_opt rows (map Some vars) = Ok dm).
    { intros rows F. rewrite membership_opt_map. destruct (@variables_readable show show_cell X num cat vars rows V W F) as [R WD]. apply membership_total; assumption. }
    destruct (M (tb_rows X) FR) as [xm EX]. destruct (M [dec]) as [dm EDM]; [intros row [<-|[]]; assumption|].
    assert (D : forall s', nb_decoded s' = Some dec -> nb_vars s' = Some (map Some vars) -> exists s2, decoded_membership (s', None) = (s2, None)).
    { intros s' D1 D2. cbn [decoded_membership]. rewrite D1, D2. cbn [ret_opt tryS]. rewrite EDM. cbn [tryS]. eauto. }
    destruct k; cbn [fuzzify_of].
    - unfold sampling_fuzzify. rewrite HK by reflexivity. unfold fuzzify_base. rewrite FV. cbn [tryS fst snd]. rewrite EX. cbn [tryS]. apply D; [exact HD|reflexivity].
    - unfold lore_fuzzify, fuzzify_base. rewrite FV. cbn [tryS fst snd]. rewrite EX. cbn [tryS]. destruct (z_inst kw) as [[|]|] eqn:ZI; cbn [or_default].
      + destruct FI as [F1 F2]; [reflexivity|discriminate|]. replace (Nat.ltb (List.length (tb_cols X)) (List.length inst)) with false by (symmetry; apply Nat.ltb_ge; lia).
        destruct (M [inst]) as [im ->]; [intros row [<-|[]]; split; assumption|]. cbn [tryS]. apply D; [exact HD|reflexivity].
      + apply D; [exact HD|reflexivity].
      + destruct FI as [F1 F2]; [reflexivity|discriminate|]. replace (Nat.ltb (List.length (tb_cols X)) (List.length inst)) with false by (symmetry; apply Nat.ltb_ge; lia).
        destruct (M [inst]) as [im ->]; [intros row [<-|[]]; split; assumption|]. cbn [tryS]. apply D; [exact HD|reflexivity].
  Qed.
End Total.
