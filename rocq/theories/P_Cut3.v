(** * Proofs: fuzzify by equal width and equal frequency (C127) *)
From Verif Require Import Prelude M_Fuzzy M_Discretize P_Discretize M_Rule S_Rule M_FDT S_FDT P_FDT M_Counterfactual S_Counterfactual P_Counterfactual M_Explainer P_FuzzyVar P_Metrics P_FDT2 M_Neighborhood S_Neighborhood P_Neighborhood P_Neighborhood2 P_Neighborhood3 M_Lore M_Distr P_Distr M_Cut S_Cut P_Cut P_Cut2 Properties_Cut M_Cut2 S_Cut2.
From Coq Require Import Reals ListDec.
Local Notation eqb := Prelude.eqb.
Open Scope Qc_scope.

Lemma breaks_len drop il bins b : breaks drop il bins = Ok b -> (2 <= List.length (qunique bins))%nat -> (2 <= List.length b)%nat.
Proof.
  intros H L. unfold breaks in H. assert (LE : (List.length (qunique bins) <= List.length bins)%nat).
  { apply NoDup_incl_length; [apply qunique_NoDup|]. intros a Ha. apply qunique_In. exact Ha. }
  assert (K : forall c, (2 <= List.length c)%nat -> forall p, (2 <= List.length (if il then match map (round_frac p) c with [] => [] | x :: r' => (x - 1 / ten p)%Qc :: r' end else map (round_frac p) c))%nat).
  { intros c Lc p. destruct c as [|u c]; [cbn in Lc; lia|]. destruct il; cbn [map List.length] in *; rewrite map_length; lia. }
  match type of H with bind ?r _ = _ => destruct r as [c|] eqn:E; [|discriminate] end. cbn [bind] in H. assert (Lc : (2 <= List.length c)%nat).
  { destruct (_ && _)%bool; [destruct drop; [|discriminate]|]; assert (c = qunique bins \/ c = bins) as [->| ->] by (first [left; congruence|right; congruence]); lia. }
  specialize (K c Lc (infer_precision c)). match type of H with Ok ?t = Ok _ => assert (b = t) by congruence end. subst b. exact K.
Qed.
Lemma sides_ok b : (2 <= List.length b)%nat -> exists s, sides b = Ok s.
Proof. intro L. destruct b as [|x [|y b]]; cbn in L; try lia. eexists. reflexivity. Qed.
Lemma call_eq il drop bins : (2 <= List.length (qunique bins))%nat ->
  match breaks drop il bins with Ok b => exists s, sides b = Ok s /\ call il drop bins = Some s | Err _ => call il drop bins = None end.
Proof.
  intro L. unfold call. destruct (breaks drop il bins) as [b|] eqn:E; [|reflexivity]. destruct (sides_ok b (breaks_len _ _ _ _ E L)) as [s ->]. exists s. split; reflexivity.
Qed.
Lemma two_unique (l : list Qc) a b : In a l -> In b l -> a <> b -> (2 <= List.length (qunique l))%nat.
Proof.
  intros A B N. apply qunique_In in A. apply qunique_In in B. destruct (qunique l) as [|u [|w q]]; [contradiction| |cbn; lia]. destruct A as [<-|[]], B as [<-|[]]. congruence.
Qed.
Lemma spread x : (exists a b, In a x /\ In b x /\ a <> b) -> exists mn mx, least x mn /\ greatest x mx /\ mn < mx.
Proof.
  intros (a & b & A & B & N). assert (NE : x <> []) by (intros ->; contradiction). destruct (min_ex x NE) as (mn & E & H). destruct (max_ex x NE) as (mx & E' & H'). exists mn, mx. split; [exact H|]. split; [exact H'|].
  destruct H as [I H], H' as [I' H']. assert (A1 := H a A). assert (A2 := H' a A). assert (B1 := H b B). assert (B2 := H' b B). apply Qcnot_le_lt. intro Q. apply N. qlra.
Qed.
(** the calls as pandas makes them *)
Lemma width_call x n mn mx : least x mn -> greatest x mx -> mn < mx -> (2 <= n)%Z ->
  equal_width (fst (pandas_cut "equal_width" x n)) (snd (pandas_cut "equal_width" x n)) x = width_points x n.
Proof.
  intros H1 H2 L N. unfold pandas_cut, width_points. change (eqb "equal_width"%string "equal_width"%string) with true. cbv iota.
  assert (K : (1 <= Z.to_nat (n - 1))%nat) by lia. assert (C := cut_bins_eq x (Z.to_nat (n - 1)) mn mx (least_min _ _ H1) (greatest_max _ _ H2) L K). rewrite Z2Nat.id in C by lia. rewrite C. cbn [bind fst snd].
  assert (S := width_bins_sorted mn mx (Z.to_nat (n - 1)) L K). assert (LB : (2 <= List.length (width_bins mn mx (Z.to_nat (n - 1))))%nat) by (unfold width_bins; cbn [List.length]; rewrite map_length, seq_length; lia).
  remember (width_bins mn mx (Z.to_nat (n - 1))) as bins eqn:EB. clear EB C.
  assert (U : (2 <= List.length (qunique bins))%nat).
  { destruct bins as [|a [|b l]]; cbn in LB; try lia. apply (two_unique _ a b); [left; reflexivity|right; left; reflexivity|]. inversion S as [|? ? _ F]; subst. inversion F as [|? ? Q _]; subst. intro E. subst. qlra. }
  assert (C1 := call_eq false false bins U). assert (C2 := call_eq false true bins U). destruct (breaks false false bins) as [b|].
  - destruct C1 as (s & -> & ->). reflexivity.
  - rewrite C1. destruct (breaks true false bins) as [b|] eqn:E.
    + cbn [bind]. destruct C2 as (s & -> & ->). reflexivity.
    + exfalso. unfold breaks in E. destruct (_ && _)%bool in E; discriminate.
Qed.
Lemma freq_call x n mn mx : least x mn -> greatest x mx -> mn < mx -> (2 <= n)%Z ->
  equal_freq (fst (pandas_cut "equal_freq" x n)) (snd (pandas_cut "equal_freq" x n)) x = freq_points x n.
Proof.
  intros H1 H2 L N. unfold pandas_cut, freq_points. change (eqb "equal_freq"%string "equal_width"%string) with false. cbv iota zeta. cbn [fst snd].
  assert (K : (1 <= Z.to_nat (n - 1))%nat) by lia. assert (NE : x <> []) by (intros ->; destruct H1 as [[] _]).
  assert (U : (2 <= List.length (qunique (qcut_bins x (Z.to_nat (n - 1)))))%nat).
  { destruct (proj2 (proj2 (C126_quantiles x _ NE K)) _ mn mx (quantiles_exist x _ K NE) H1 H2) as (Q0 & Qk & _). apply (two_unique _ mn mx); [eapply nth_error_In; exact Q0|eapply nth_error_In; exact Qk|]. intro E. subst. qlra. }
  remember (qcut_bins x (Z.to_nat (n - 1))) as bins eqn:EB. clear EB.
  assert (C1 := call_eq true false bins U). assert (C2 := call_eq true true bins U). destruct (breaks false true bins) as [b|].
  - destruct C1 as (s & -> & ->). reflexivity.
  - rewrite C1. destruct (breaks true true bins) as [b|] eqn:E.
    + cbn [bind]. destruct C2 as (s & -> & ->). reflexivity.
    + exfalso. unfold breaks in E. destruct (_ && _)%bool in E; discriminate.
Qed.
Lemma list_set_ne A i (x : A) l l' : list_set i x l = Ok l' -> l' <> [].
Proof. intro H. destruct l as [|y l]; [destruct i; discriminate H|]. destruct i as [|i]; cbn in H; [injection H as <-; discriminate|]. destruct (list_set i x l); [|discriminate H]. cbn in H. injection H as <-. discriminate. Qed.
Lemma width_ne q1 q2 x p : equal_width q1 q2 x = Ok p -> p <> [].
Proof.
  unfold equal_width. intro H. destruct q1 as [[l r]|]; [|destruct q2 as [[l r]|]; [|discriminate H]]; (destruct (qminimum x); [|discriminate H]); cbn [bind] in H; apply list_set_ne in H; exact H.
Qed.
Lemma freq_ne q1 q2 x p : equal_freq q1 q2 x = Ok p -> p <> [].
Proof.
  unfold equal_freq. intro H. destruct q1 as [[l r]|]; [|destruct q2 as [[l r]|]; [|discriminate H]]; (destruct (qminimum x); [|discriminate H]); cbn [bind] in H; apply list_set_ne in H; exact H.
Qed.

Section Divided.
  Variables (show : Qc -> string) (show_cell : cell -> string).
  Lemma points_call division (y : list Z) n th pv (name : string) qs p : division = "equal_width"%string \/ division = "equal_freq"%string ->
    (2 <= List.length qs)%nat -> (2 <= n)%Z -> memb name pv = small_std qs -> points_of pandas_cut division y n th pv (name, qs) = Ok p ->
    p <> [] /\ (nearly_constant qs -> StronglySorted Qclt p /\ forall x, In x p <-> In x qs) /\ (~ nearly_constant qs -> divides division n qs p).
  Proof.
    intros D L N PV H. unfold points_of in H. rewrite PV in H. assert (SP := @small_std_spec qs L). destruct (small_std qs) eqn:SS.
    - assert (NC := proj1 SP eq_refl). assert (p = qunique qs) by congruence. subst p. split; [|split; [intros _; split; [apply qunique_sorted|intro x; apply qunique_In]|contradiction]].
      destruct qs as [|q qs]; [cbn in L; lia|]. intro E. assert (I : In q (qunique (q :: qs))) by (apply qunique_In; left; reflexivity). rewrite E in I. contradiction.
    - assert (VA := @varied qs L SS). destruct (spread qs VA) as (mn & mx & H1 & H2 & LT). destruct D as [-> | ->].
      + change (eqb "equal_width"%string "entropy"%string) with false in H. change (eqb "equal_width"%string "equal_width"%string) with true in H. cbv iota in H. split; [eapply width_ne; exact H|]. split; [intro NC; apply SP in NC; discriminate|]. intros _. left. split; [reflexivity|]. rewrite <- (width_call qs n mn mx); assumption.
      + change (eqb "equal_freq"%string "entropy"%string) with false in H. change (eqb "equal_freq"%string "equal_width"%string) with false in H. cbv iota in H. split; [eapply freq_ne; exact H|]. split; [intro NC; apply SP in NC; discriminate|]. intros _. right. split; [reflexivity|]. rewrite <- (freq_call qs n mn mx); assumption.
  Qed.
  Lemma sets_ne (pts : list Qc) name : pts <> [] -> exists sets, continuous_sets "point_set" (zip (col_labels show None name pts) pts) = Ok sets.
  Proof. intro N. destruct pts as [|f r]; [congruence|]. cbn [col_labels map]. destruct r as [|g r]; eexists; reflexivity. Qed.
  Lemma map_cnum qs qs' : map CNum qs = map CNum qs' -> qs = qs'.
  Proof. revert qs'. induction qs as [|u qs IH]; intros [|w qs'] EE; try discriminate; [reflexivity|]. cbn [map] in EE. assert (u = w) by congruence. subst w. f_equal. apply IH. congruence. Qed.

  Lemma division_variables s division kw X vars n : division = "equal_width"%string \/ division = "equal_freq"%string -> z_sets kw = Some n -> (2 <= n)%Z ->
    fuzzy_vars pandas_cut show show_cell s division kw = Ok (X, map Some vars) -> NoDup (tb_cols X) -> (2 <= List.length (tb_rows X))%nat ->
    exists num cat, z_num kw = Some num /\ z_cat kw = Some cat /\ divided show show_cell division n X num cat vars.
  Proof.
    intros DV HS N2 H ND L2. destruct (@vars_inv _ _ _ _ _ _ _ _ H) as (y & num & cat & cols & pts & disc & HX & HY & HN & HC & FN & LY & L1 & NE & FP & FD' & G). exists num, cat. split; [assumption|]. split; [assumption|].
    rewrite HS in FP. cbn [or_default] in FP.
    destruct (order_spec ND) as (O1 & O2 & O3).
    assert (KP : map fst pts = num).
    { clear -FP FN. assert (map fst pts = map fst cols) as ->. { clear FN. induction FP as [|? ? ? ? [A _]]; cbn; [reflexivity|]. congruence. } clear FP. induction FN as [|? ? ? ? [A _]]; cbn; [reflexivity|]. congruence. }
    assert (KD : map fst disc = cat). { clear -FD'. induction FD' as [|? ? ? ? [A _]]; cbn; [reflexivity|]. congruence. }
    assert (CN : forall c qs, In (c, qs) cols -> In c num /\ exists col, tb_column X c = Ok col /\ col = map CNum qs /\ List.length qs = List.length (tb_rows X)).
    { intros c qs I. apply In_nth_error in I. destruct I as [i I]. destruct (Forall2_nth_r FN i I) as (c' & I' & A & col & B & C). cbn in A. subst c'. split; [eapply nth_error_In; eassumption|]. exists col. split; [assumption|]. assert (D := numbers_spec _ C). split; [assumption|]. cbn [snd] in D.
      unfold tb_column in B. match type of B with bind ?r _ = _ => destruct r as [j|]; [|discriminate] end. cbn [bind] in B. apply column_length in B. rewrite D in B. rewrite map_length in B. assumption. }
    assert (PG : forall c p, In (c, p) pts -> exists qs, In (c, qs) cols /\ p <> [] /\
      (nearly_constant qs -> StronglySorted Qclt p /\ forall x, In x p <-> In x qs) /\ (~ nearly_constant qs -> divides division n qs p)).
    { intros c p I. apply In_nth_error in I. destruct I as [i I]. destruct (Forall2_nth_r FP i I) as ([c' qs] & I' & A & B). cbn in A. subst c'. cbn [snd] in B. apply nth_error_In in I'. exists qs. split; [assumption|].
      destruct (CN _ _ I') as (_ & col & TB & ECol & L). refine (points_call _ _ _ _ _ _ _ _ DV _ N2 _ B); [lia|].
      destruct (small_std qs) eqn:Q.
      - apply memb_In. apply in_map_iff. exists (c, qs). split; [reflexivity|]. apply filter_In. auto.
      - apply memb_not_In. intro J. apply in_map_iff in J. destruct J as ([c' qs'] & EC & J). cbn [fst] in EC. subst c'. apply filter_In in J. destruct J as [J S]. cbn [snd] in S.
        destruct (CN _ _ J) as (_ & col' & TB' & ECol' & _). assert (qs' = qs); [|congruence]. rewrite TB in TB'. apply map_cnum. congruence. }
    assert (IN : forall k, In k (dkeys (dict_of pts)) \/ In k (dkeys (dict_of disc)) -> In k (dkeys (order_of (tb_cols X)))).
    { intros k I. rewrite O2. assert (C : exists col, tb_column X k = Ok col).
      { destruct I as [I|I]; rewrite dict_of_keys_In in I.
        - rewrite KP in I. apply In_nth_error in I. destruct I as [i I]. destruct (Forall2_nth FN i I) as (cq & _ & _ & col & C & _). eauto.
        - rewrite KD in I. apply In_nth_error in I. destruct I as [i I]. destruct (Forall2_nth FD' i I) as (cq & _ & _ & col & C & _). eauto. }
      destruct C as [col C]. unfold tb_column in C. clear -C. destruct (index_of k (tb_cols X)) as [i|] eqn:E; [|discriminate]. clear C. revert i E. induction (tb_cols X) as [|c l IH]; intros i E; [discriminate|]. cbn [index_of] in E.
      unfold eqb in E. destruct (eq_dec k c) as [->|N]; [left; reflexivity|]. destruct (index_of k l) as [j|]; [|discriminate]. right. eapply IH. reflexivity. }
    destruct (@C11_variables show show_cell (dict_of pts) (dict_of disc) (order_of (tb_cols X)) None None "point_set"%string) as (vs' & E' & LV & SP).
    { intros k i E. rewrite O1. apply O3 in E. apply nth_error_Some. congruence. }
    { intros k k' i E1 E2. apply O3 in E1. apply O3 in E2. congruence. }
    { intros name points I. apply In_dict_of in I. destruct (PG _ _ I) as (qs & _ & GP & _). exact (sets_ne points name GP). }
    { apply dict_of_nodup_keys. } { apply dict_of_nodup_keys. } { exact IN. }
    rewrite G in E'. injection E' as <-. rewrite map_length in LV.
    assert (NM : forall i v, nth_error vars i = Some v -> nth_error (tb_cols X) i = Some (fv_name v) /\
      (In (fv_name v) cat -> exists values, In (fv_name v, values) (dict_of disc) /\ fv_sets v = discrete_sets (zip (map show_cell values) values)) /\
      (~ In (fv_name v) cat -> exists p sets, In (fv_name v, p) (dict_of pts) /\ continuous_sets "point_set" (zip (map show p) p) = Ok sets /\ fv_sets v = map FC sets)).
    { intros i v I. assert (I' : nth_error (map Some vars) i = Some (Some v)) by (apply map_nth_error; assumption).
      destruct (nth_error (tb_cols X) i) as [c|] eqn:EC. 2:{ apply nth_error_None in EC. assert (i < List.length vars)%nat by (apply nth_error_Some; congruence). lia. }
      assert (OC := proj2 (O3 c i) EC). destruct (SP c i OC) as (S1 & S2 & S3).
      destruct (dget c (dict_of disc)) as [values|] eqn:DC.
      - assert (J := dget_In _ _ DC). specialize (S1 values J). rewrite I' in S1. injection S1 as ->. cbn [fv_name fv_sets]. split; [reflexivity|]. split.
        + intros _. exists values. split; [assumption|reflexivity].
        + intro N. exfalso. apply N. rewrite <- KD. apply dict_of_keys_In. eapply dget_Some_key. eassumption.
      - assert (ND' : ~ In c (dkeys (dict_of disc))) by (apply dget_None; assumption).
        destruct (dget c (dict_of pts)) as [p|] eqn:PC.
        + assert (J := dget_In _ _ PC). destruct (S2 p J ND') as (sets & C1 & C2). rewrite I' in C2. injection C2 as ->. cbn [fv_name fv_sets]. split; [reflexivity|]. split.
          * intro J'. exfalso. apply ND'. apply dict_of_keys_In. rewrite KD. assumption.
          * intros _. exists p, sets. split; [assumption|]. split; [exact C1|reflexivity].
        + assert (NP : ~ In c (dkeys (dict_of pts))) by (apply dget_None; assumption). rewrite (S3 NP ND') in I'. discriminate. }
    split.
    - apply nth_error_ext. intro i. destruct (nth_error vars i) as [v|] eqn:E.
      + rewrite (map_nth_error _ _ _ E). symmetry. apply NM. assumption.
      + rewrite nth_error_map, E. symmetry. apply nth_error_None. apply nth_error_None in E. cbn. lia.
    - intros i v col EV EC. destruct (NM i v EV) as (N1 & Nc & N3). assert (TC := tb_column_nth _ _ ND N1). rewrite EC in TC. split.
      + intro I. destruct (Nc I) as (values & V1 & V2). apply In_dict_of in V1. apply In_nth_error in V1. destruct V1 as [j V1]. destruct (Forall2_nth_r FD' j V1) as (c' & J & A & col' & B & C). cbn in A, C. subst c'. rewrite TC in B. injection B as <-.
        exists values. subst values. split; [apply appearing_NoDup|]. split; [intro x; apply appearing_In|]. rewrite V2. unfold discrete_sets. clear. generalize (appearing col) as w. induction w as [|x w IH]; [reflexivity|]. cbn. f_equal. exact IH.
      + intro I. destruct (N3 I) as (p & sets & P1 & P2 & P3). apply In_dict_of in P1. destruct (PG _ _ P1) as (qs & Q1 & _ & Q2 & Q3). destruct (CN _ _ Q1) as (M1 & col' & M2 & M3 & _). rewrite TC in M2. injection M2 as <-. split; [assumption|].
        exists qs, p, sets. split; [assumption|]. split; [assumption|]. split; [assumption|]. split; assumption.
  Qed.
End Divided.

Lemma qz_qn n : (0 <= n)%Z -> qz n = qn (Z.to_nat n).
Proof. intro H. unfold qn. rewrite Z2Nat.id by exact H. reflexivity. Qed.
(** the points lie in increasing order from the least value *)
Lemma divides_sorted division n qs pts : (2 <= n)%Z -> divides division n qs pts -> spaced division n qs -> qs <> [] ->
  StronglySorted Qclt pts /\ (exists m, In m pts /\ least qs m) /\ (2 <= List.length pts)%nat.
Proof.
  intros N D [S1 S2] NE. assert (K : (1 <= Z.to_nat (n - 1))%nat) by lia. assert (EN : n = Z.of_nat (S (Z.to_nat (n - 1)))) by lia. destruct D as [[-> D]|[-> D]].
  - destruct (S1 eq_refl) as (mn & mx & H1 & H2 & W). rewrite qz_qn in W by lia.
    destruct (C126_equal_width_covers qs (Z.to_nat (n - 1)) mn mx (repeat ""%string (S (Z.to_nat (n - 1)))) ""%string H1 H2 K W (repeat_length _ _)) as (l & E & SL & _). rewrite <- EN, D in E. injection E as <-. split; [exact SL|].
    assert (LT : mn < mx). { assert (Q : 0 < qn (Z.to_nat (n - 1))) by (apply qn_pos; lia). assert (E : (mx - mn) / qn (Z.to_nat (n - 1)) * qn (Z.to_nat (n - 1)) = mx - mn) by (apply Qcdiv_mult; apply qn_nz; exact K). assert (P : 0 < (mx - mn) / qn (Z.to_nat (n - 1))) by (eapply Qclt_trans; [|exact W]; reflexivity). assert (P' := Qcmult_pos P Q). rewrite E in P'. qlra. }
    destruct (C126_equal_width_points qs (Z.to_nat (n - 1)) mn mx H1 H2 LT K) as (l & E & LL & Z0 & _). rewrite <- EN, D in E. injection E as <-. split; [|lia]. exists mn. split; [eapply nth_error_In; exact Z0|exact H1].
  - destruct (S2 eq_refl) as (bs & Q & A). destruct (min_ex qs NE) as (mn & _ & H1). destruct (max_ex qs NE) as (mx & _ & H2).
    assert (ND : NoDup bs) by (apply sorted_NoDup, apart_strict; exact A).
    destruct (C126_equal_freq_points qs (Z.to_nat (n - 1)) bs mn mx H1 H2 K Q ND) as (l & E & LL & Z0 & _ & F). rewrite <- EN, D in E. injection E as <-. split; [apply (proj1 (F A))|]. split; [|lia]. exists mn. split; [eapply nth_error_In; exact Z0|exact H1].
Qed.
Lemma const_lower qs pts : qs <> [] -> (forall x, In x pts <-> In x qs) -> exists m, In m pts /\ least qs m.
Proof. intros NE H. destruct (min_ex qs NE) as (mn & _ & H1). exists mn. split; [apply H, H1|exact H1]. Qed.

Section Divided2.
  Variables (show : Qc -> string) (show_cell : cell -> string).
  Lemma divided_nth division n X num cat vars i v : divided show show_cell division n X num cat vars -> (forall row, In row (tb_rows X) -> (List.length (tb_cols X) <= List.length row)%nat) ->
    nth_error vars i = Some v -> exists col, column (tb_rows X) i = Ok col /\ List.length col = List.length (tb_rows X) /\ forall r row, nth_error (tb_rows X) r = Some row -> nth_error col r = nth_error row i.
  Proof.
    intros [V _] W H. apply column_ok. intros row I. specialize (W row I). assert (i < List.length vars)%nat by (apply nth_error_Some; congruence). rewrite <- V, map_length in W. lia.
  Qed.
  (** a numerical column: its sets stand around increasing points from the least value *)
  Lemma divided_num division n X num cat vars i v : (2 <= n)%Z -> tb_rows X <> [] -> divided show show_cell division n X num cat vars ->
    (forall row, In row (tb_rows X) -> (List.length (tb_cols X) <= List.length row)%nat) -> columns_spaced division n X cat ->
    nth_error vars i = Some v -> ~ In (fv_name v) cat ->
    exists qs pts sets, column (tb_rows X) i = Ok (map CNum qs) /\ fv_sets v = map FC sets /\ continuous_sets "point_set" (zip (map show pts) pts) = Ok sets /\
      StronglySorted Qclt pts /\ (exists m, In m pts /\ least qs m) /\ (List.length pts = 1%nat -> forall q, In q qs -> In q pts).
  Proof.
    intros N NR V W SP HV NC. destruct (divided_nth _ _ _ _ _ _ _ _ V W HV) as (col & C & LC & _). destruct (proj2 V i v col HV C) as [_ V2]. destruct (V2 NC) as (_ & qs & pts & sets & -> & E1 & E2 & A & B).
    assert (CI : nth_error (tb_cols X) i = Some (fv_name v)) by (rewrite <- (proj1 V); apply map_nth_error; exact HV).
    assert (NE : qs <> []) by (intros ->; destruct (tb_rows X); [congruence|discriminate LC]). assert (LQ : List.length qs = List.length (tb_rows X)) by (rewrite map_length in LC; exact LC).
    exists qs, pts, sets. split; [exact C|]. split; [exact E1|]. split; [exact E2|].
    assert (DEC : nearly_constant qs \/ ~ nearly_constant qs).
    { destruct (Nat.lt_ge_cases (List.length qs) 2) as [Q|Q]; [right; intros [Q' _]; lia|]. assert (SS := @small_std_spec qs Q). destruct (small_std qs); [left; apply SS; reflexivity|right; intro Z; apply SS in Z; discriminate]. }
    destruct DEC as [K|K].
    - destruct (A K) as [A1 A2]. split; [exact A1|]. split; [apply const_lower; assumption|]. intros _ q Hq. apply A2. exact Hq.
    - destruct (SP i (fv_name v) qs CI NC C) as [Q|Q]; [contradiction|]. destruct (divides_sorted _ _ _ _ N (B K) Q NE) as (D1 & D2 & D3). split; [exact D1|]. split; [exact D2|]. intro L1. exfalso. lia.
  Qed.


  Lemma zip_snd (pts : list Qc) : map snd (zip (map show pts) pts) = pts.
  Proof. unfold zip. induction pts as [|y w IH]; cbn; [reflexivity|]. f_equal. exact IH. Qed.
  (** the degrees of the values of a numerical column *)
  Lemma points_degrees pts sets qs q : continuous_sets "point_set" (zip (map show pts) pts) = Ok sets -> StronglySorted Qclt pts -> (exists m, In m pts /\ least qs m) ->
    (List.length pts = 1%nat -> forall q, In q qs -> In q pts) -> In q qs ->
    exists ds, Forall2 (fun t d => membership t (CNum q) = Ok d) (map FC sets) ds /\ (forall d, In d ds -> 0 <= d /\ d <= 1) /\
      ((exists p, In p pts /\ q <= p) -> qsum ds = 1) /\ ((forall p, In p pts -> p < q) -> Forall (fun d => d = 0) ds).
  Proof.
    intros E S (m & IM & LM) ONE IQ. destruct pts as [|f [|g rest]]; [contradiction| |].
    - cbn in E. injection E as <-. destruct (ONE eq_refl q IQ) as [<-|[]]. exists [1]. split; [|split; [intros d [<-|[]]; split; discriminate|]].
      + constructor; [|constructor]. rewrite P_FuzzySet.membership_valid by (split; apply Qcle_refl). f_equal. unfold P_FuzzySet.tric. cbn [pa pb pc]. apply P_FuzzySet.tri_peak.
      + split; [intros _; cbn; ring|]. intro H. exfalso. assert (Q := H f (or_introl eq_refl)). qlra.
    - destruct (covers (map show (f :: g :: rest)) (f :: g :: rest) "point_set" q m) as (sets' & ds & E' & F & A & B); [apply map_length|cbn; lia|exact S|exact IM|apply LM; exact IQ|].
      change (combine (map show (f :: g :: rest)) (f :: g :: rest)) with (zip (map show (f :: g :: rest)) (f :: g :: rest)) in E'. rewrite E in E'. injection E' as <-. exists ds. split; [|split; [|split; [exact A|exact B]]].
      + clear -F. induction F; cbn; constructor; assumption.
      + intros d I. apply In_nth_error in I. destruct I as [k I]. destruct (Forall2_nth_r F k I) as (s & _ & M). apply P_FuzzySet.membership_Ok in M. destruct M as [[M1 M2] ->]. apply P_FuzzySet.tri_01; assumption.
  Qed.
  Lemma divided_distinct division n X num cat vars : injective show -> injective show_cell -> (2 <= n)%Z -> NoDup (tb_cols X) -> tb_rows X <> [] ->
    (forall row, In row (tb_rows X) -> (List.length (tb_cols X) <= List.length row)%nat) -> columns_spaced division n X cat ->
    divided show show_cell division n X num cat vars -> distinct_names vars /\ forall v, In v vars -> fv_sets v <> [].
  Proof.
    intros IS IC N ND NE W SP V. assert (K : forall v, In v vars -> NoDup (map fs_name (fv_sets v)) /\ fv_sets v <> []).
    { intros v I. apply In_nth_error in I. destruct I as [i I]. destruct (in_dec string_dec (fv_name v) cat) as [J|J].
      - destruct (divided_nth _ _ _ _ _ _ _ _ V W I) as (col & C & LC & _). destruct (proj2 V i v col I C) as [V1 _]. destruct (V1 J) as (values & NV & IV & ->). split.
        + rewrite map_map. cbn [fs_name]. apply NoDup_map_inj; assumption.
        + destruct col as [|x col]; [destruct (tb_rows X); [congruence|discriminate]|]. destruct values; [|discriminate]. exfalso. apply (proj2 (IV x)). left. reflexivity.
      - destruct (divided_num _ _ _ _ _ _ _ _ N NE V W SP I J) as (qs & pts & sets & _ & -> & E & S & (m & IM & _) & _). assert (M := continuous_names (map show pts) pts (map_length _ _) E). split.
        + rewrite map_map. cbn [fs_name]. change (NoDup (map c_name sets)). rewrite M. apply NoDup_map_inj; [assumption|]. apply sorted_NoDup. assumption.
        + destruct sets; [|discriminate]. destruct pts; [contradiction|discriminate M]. }
    split; [split; [rewrite (proj1 V); assumption|intros v I; apply K; assumption]|intros v I; apply K; assumption].
  Qed.
  Lemma divided_readable division n X num cat vars rows : (2 <= n)%Z -> tb_rows X <> [] -> divided show show_cell division n X num cat vars ->
    (forall row, In row (tb_rows X) -> (List.length (tb_cols X) <= List.length row)%nat) -> columns_spaced division n X cat ->
    (forall row, In row rows -> fits (tb_cols X) cat row) -> readable vars rows /\ wide vars rows.
  Proof.
    intros N NR V W SP F. assert (LV : List.length vars = List.length (tb_cols X)) by (rewrite <- (proj1 V), map_length; reflexivity). split.
    - intros row I a v s Hv Is. destruct (F row I) as [L Q]. assert (LA : (a < List.length vars)%nat) by (apply nth_error_Some; congruence).
      assert (CA : nth_error (tb_cols X) a = Some (fv_name v)) by (rewrite <- (proj1 V); apply map_nth_error; assumption).
      destruct (in_dec string_dec (fv_name v) cat) as [J|J].
      + destruct (divided_nth _ _ _ _ _ _ _ _ V W Hv) as (col & C & LC & _). destruct (proj2 V a v col Hv C) as [V1 _].
        destruct (nth_error row a) as [x|] eqn:E; [|apply nth_error_None in E; lia]. destruct (V1 J) as (values & _ & _ & S). rewrite S in Is. apply in_map_iff in Is. destruct Is as (y & <- & _). exists x. eexists. split; [reflexivity|apply P_FuzzySet.discrete_degree].
      + destruct (Q a _ CA J) as [q E]. destruct (divided_num _ _ _ _ _ _ _ _ N NR V W SP Hv J) as (qs & pts & sets & _ & S & ES & SS & _). rewrite S in Is. apply in_map_iff in Is. destruct Is as (c & <- & Is). exists (CNum q).
        assert (VC : P_FuzzySet.valid c).
        { apply (@C03_valid "point_set"%string (zip (map show pts) pts) sets c); [|assumption|assumption]. rewrite zip_snd. apply sorted_lt_le. assumption. }
        eexists. split; [assumption|apply P_FuzzySet.membership_valid; assumption].
    - intros row I. destruct (F row I) as [L _]. lia.
  Qed.
End Divided2.

Lemma freq_total qs n mn mx : least qs mn -> greatest qs mx -> mn < mx -> (2 <= n)%Z -> exists p, freq_points qs n = Ok p.
Proof.
  intros H1 H2 L N. assert (NE : qs <> []) by (intros ->; destruct H1 as [[] _]). assert (K : (1 <= Z.to_nat (n - 1))%nat) by lia. assert (EN : n = Z.of_nat (S (Z.to_nat (n - 1)))) by lia. remember (Z.to_nat (n - 1)) as k. clear Heqk. subst n.
  assert (Q := quantiles_exist qs k K NE). destruct (proj2 (proj2 (C126_quantiles qs k NE K)) _ mn mx Q H1 H2) as (Q0 & Qk & _).
  destruct (ListDec.NoDup_dec Qc_eq_dec (qcut_bins qs k)) as [ND|ND].
  - destruct (C126_equal_freq_points qs k _ mn mx H1 H2 K Q ND) as (l & E & _). eauto.
  - destruct (Nat.lt_ge_cases k 2) as [K2|K2].
    + exfalso. apply ND. assert (k = 1)%nat by lia. subst k. destruct Q as [LQ _]. destruct (qcut_bins qs 1) as [|a [|b [|c l]]]; try discriminate LQ. cbn in Q0, Qk. injection Q0 as ->. injection Qk as ->. constructor; [intros [E|[]]; subst; qlra|]. constructor; [intros []|constructor].
    + destruct (proj2 (C126_equal_freq_repeated qs k _ mn mx H1 H2 K2 Q ND) L) as (rest & ds & E & _). eauto.
Qed.
Lemma points_total division (y : list Z) n th pv (name : string) qs : division = "equal_width"%string \/ division = "equal_freq"%string ->
  (2 <= List.length qs)%nat -> (2 <= n)%Z -> (~ In name pv -> small_std qs = false) -> exists p, points_of pandas_cut division y n th pv (name, qs) = Ok p.
Proof.
  intros D L N PV. unfold points_of. destruct (memb name pv) eqn:M; [eauto|]. assert (NI : ~ In name pv) by (intro I; rewrite (proj2 (@memb_In _ _ name pv) I) in M; discriminate).
  destruct (spread qs (@varied qs L (PV NI))) as (mn & mx & H1 & H2 & LT). destruct D as [-> | ->].
  - change (eqb "equal_width"%string "entropy"%string) with false. change (eqb "equal_width"%string "equal_width"%string) with true. cbv iota. rewrite (width_call qs n mn mx H1 H2 LT N).
    destruct (C126_equal_width_points qs (Z.to_nat (n - 1)) mn mx H1 H2 LT ltac:(lia)) as (l & E & _). replace (Z.of_nat (S (Z.to_nat (n - 1)))) with n in E by lia. eauto.
  - change (eqb "equal_freq"%string "entropy"%string) with false. change (eqb "equal_freq"%string "equal_width"%string) with false. cbv iota. rewrite (freq_call qs n mn mx H1 H2 LT N). exact (freq_total qs n mn mx H1 H2 LT N).
Qed.

Section Total2.
  Variables (show : Qc -> string) (show_cell : cell -> string).
  Lemma division_total division n s kw X y num cat : division = "equal_width"%string \/ division = "equal_freq"%string -> z_sets kw = Some n -> (2 <= n)%Z ->
    nb_X s = Some X -> nb_y s = Some y -> nb_Xy s = true -> z_num kw = Some num -> z_cat kw = Some cat -> z_verbose kw = false ->
    NoDup (tb_cols X) -> (2 <= List.length (tb_rows X))%nat -> List.length (tb_rows X) = List.length y -> num <> [] ->
    (forall c, In c num \/ In c cat <-> In c (tb_cols X)) ->
    (forall row, In row (tb_rows X) -> List.length row = List.length (tb_cols X) /\ forall i c, nth_error (tb_cols X) i = Some c -> In c num -> exists q, nth_error row i = Some (CNum q)) ->
    exists vars, fuzzy_vars pandas_cut show show_cell s division kw = Ok (X, map Some vars).
  Proof.
    intros DV HS N2 HX HY HXY HN HC HV ND L2 LY NE COV ROWS.
    assert (COL : forall c, In c (tb_cols X) -> exists i col, nth_error (tb_cols X) i = Some c /\ tb_column X c = Ok col /\ List.length col = List.length (tb_rows X) /\ (In c num -> forall x, In x col -> exists q, x = CNum q)).
    { intros c I. apply In_nth_error in I. destruct I as [i I]. destruct (@column_ok (tb_rows X) i) as (col & C & LC & NC).
      { intros row IR. destruct (ROWS row IR) as [L _]. rewrite L. apply nth_error_Some. congruence. }
      exists i, col. split; [assumption|]. split; [rewrite (tb_column_nth _ _ ND I); assumption|]. split; [assumption|]. intros J x IX. apply In_nth_error in IX. destruct IX as [r IX].
      assert (r < List.length (tb_rows X))%nat by (rewrite <- LC; apply nth_error_Some; congruence). destruct (nth_error (tb_rows X) r) as [row|] eqn:ER; [|apply nth_error_None in ER; lia].
      rewrite (NC r row ER) in IX. destruct (ROWS row (nth_error_In _ _ ER)) as [_ Q]. destruct (Q i c I J) as [q Q']. exists q. congruence. }
    unfold fuzzy_vars. rewrite HX, HY, HXY, HN, HC, HV, HS. cbn [given negb or_default]. rewrite Bool.andb_false_r. cbv iota.
    destruct (mapM_total (fun c => do col <- tb_column X c; do q <- numbers col; Ok (c, q)) num) as [cols EC].
    { intros c I. destruct (COL c) as (i & col & _ & C & _ & NQ); [apply COV; auto|]. rewrite C. cbn [bind]. destruct (numbers_ok col (NQ I)) as [qs ->]. cbn [bind]. eauto. }
    rewrite EC. cbn [bind].
    assert (CN : forall c qs, In (c, qs) cols -> In c num /\ List.length qs = List.length (tb_rows X)).
    { intros c qs I. apply mapM_ok in EC. apply In_nth_error in I. destruct I as [i I]. destruct (Forall2_nth_r EC i I) as (c' & I' & A).
      assert (IN := nth_error_In _ _ I'). destruct (COL c') as (j & col & _ & C & LC & _); [apply COV; auto|]. rewrite C in A. cbn [bind] in A. destruct (numbers col) as [q|] eqn:Q; [|discriminate]. cbn [bind] in A. injection A as -> ->. split; [assumption|].
      apply numbers_spec in Q. rewrite Q, map_length in LC. assumption. }
    unfold get_fuzzy_points. assert (LC : List.length cols = List.length num) by (eapply mapM_length; eassumption).
    assert (B : (Nat.eqb (List.length cols) 0 || Nat.eqb (List.length (tb_rows X)) 0 || negb (Nat.eqb (List.length (tb_rows X)) (List.length y)))%bool = false).
    { apply orb_false_intro; [apply orb_false_intro|].
      - apply Nat.eqb_neq. destruct num; [congruence|]. rewrite LC. discriminate.
      - apply Nat.eqb_neq. lia.
      - apply negb_false_iff, Nat.eqb_eq. assumption. }
    rewrite B. replace (negb (memb division ["equal_freq"; "equal_width"; "entropy"]%string)) with false by (destruct DV as [-> | ->]; reflexivity). cbv iota.
    set (pv := map fst (filter (fun cq : string * list Qc => small_std (snd cq)) cols)).
    destruct (mapM_total (fun nc : string * list Qc => do p <- points_of pandas_cut division y n (or_default None (z_th kw)) pv nc; Ok (fst nc, p)) cols) as [pts EP].
    { intros [c qs] I. destruct (CN c qs I) as [_ L]. destruct (points_total division y n (or_default None (z_th kw)) pv c qs DV) as [p ->]; [lia|exact N2| |cbn [bind]; eauto].
      intro N. destruct (small_std qs) eqn:Q; [|reflexivity]. exfalso. apply N. unfold pv. apply in_map_iff. exists (c, qs). split; [reflexivity|]. apply filter_In. auto. }
    rewrite EP. cbn [bind].
    destruct (mapM_total (fun c => do col <- tb_column X c; Ok (c, appearing col)) cat) as [disc ED].
    { intros c I. destruct (COL c) as (i & col & _ & C & _); [apply COV; auto|]. rewrite C. cbn [bind]. eauto. }
    rewrite ED. cbn [bind]. fold (order_of (tb_cols X)).
    assert (KP : map fst pts = num).
    { assert (K1 : map fst pts = map fst cols). { apply mapM_ok in EP. clear -EP. induction EP as [|nc np l l' A F IH]; cbn; [reflexivity|]. rewrite IH. f_equal. match type of A with bind ?r _ = _ => destruct r; [|discriminate] end. injection A as <-. reflexivity. }
      rewrite K1. apply mapM_ok in EC. clear -EC. induction EC as [|c cq l l' A F IH]; cbn; [reflexivity|]. rewrite IH. f_equal. destruct (tb_column X c); [|discriminate]. cbn [bind] in A. destruct (numbers a); [|discriminate]. injection A as <-. reflexivity. }
    assert (KD : map fst disc = cat).
    { apply mapM_ok in ED. clear -ED. induction ED as [|c cq l l' A F IH]; cbn; [reflexivity|]. rewrite IH. f_equal. destruct (tb_column X c); [|discriminate]. injection A as <-. reflexivity. }
    destruct (order_spec ND) as (O1 & O2 & O3).
    destruct (@C11_variables show show_cell (dict_of pts) (dict_of disc) (order_of (tb_cols X)) None None "point_set"%string) as (vs & E' & LV & SP).
    { intros k i E. rewrite O1. apply O3 in E. apply nth_error_Some. congruence. }
    { intros k k' i E1 E2. apply O3 in E1. apply O3 in E2. congruence. }
    { intros name points I. apply In_dict_of in I. apply In_nth_error in I. destruct I as [i I]. apply mapM_ok in EP. destruct (Forall2_nth_r EP i I) as ([c qs] & I' & A). cbn [fst] in A.
      match type of A with bind ?r _ = _ => destruct r as [p|] eqn:Q; [|discriminate] end. cbn [bind] in A. injection A as -> ->. apply nth_error_In in I'. destruct (CN _ _ I') as [_ L].
      assert (GP : points <> []).
      { unfold points_of in Q. destruct (memb name pv).
        - intro Z. assert (EQ : qunique qs = []) by congruence. destruct qs as [|q0 qs]; [cbn in L; lia|]. assert (IQ : In q0 (qunique (q0 :: qs))) by (apply qunique_In; left; reflexivity). rewrite EQ in IQ. contradiction.
        - destruct DV as [-> | ->]; cbn in Q; [eapply width_ne|eapply freq_ne]; exact Q. }
      exact (sets_ne show points name GP). }
    { apply dict_of_nodup_keys. } { apply dict_of_nodup_keys. }
    { intros k I. rewrite O2. apply COV. rewrite !dict_of_keys_In, KP, KD in I. assumption. }
    rewrite E'. cbn [bind].
    assert (AS : exists vars, vs = map Some vars).
    { assert (A : forall i o, nth_error vs i = Some o -> exists v, o = Some v).
      { intros i o I. destruct (nth_error (tb_cols X) i) as [c|] eqn:EI.
        - destruct (SP c i (proj2 (O3 c i) EI)) as (S1 & S2 & _). assert (J := proj2 (COV c) (nth_error_In _ _ EI)).
          destruct (dget c (dict_of disc)) as [values|] eqn:DC.
          + rewrite (S1 values (dget_In _ _ DC)) in I. injection I as <-. eauto.
          + assert (NDc : ~ In c (dkeys (dict_of disc))) by (apply dget_None; assumption).
            destruct J as [J|J]; [|exfalso; apply NDc; apply dict_of_keys_In; rewrite KD; assumption].
            destruct (dget_ex c (dict_of pts)) as [p PC]; [apply dict_of_keys_In; rewrite KP; assumption|].
            destruct (S2 p (dget_In _ _ PC) NDc) as (sets & _ & Q). rewrite Q in I. injection I as <-. eauto.
        - apply nth_error_None in EI. assert (i < List.length vs)%nat by (apply nth_error_Some; congruence). lia. }
      clear -A. induction vs as [|o vs IH]; [exists []; reflexivity|]. destruct (A 0%nat o eq_refl) as [v ->]. destruct IH as [vars ->]; [intros i o I; apply (A (S i)); assumption|]. exists (v :: vars). reflexivity. }
    destruct AS as [vars ->]. eauto.
  Qed.

  Lemma division_fuzzify k inst division n s kw X y dec num cat : division = "equal_width"%string \/ division = "equal_freq"%string -> z_sets kw = Some n -> (2 <= n)%Z -> columns_spaced division n X cat ->
    nb_X s = Some X -> nb_y s = Some y -> nb_Xy s = true -> nb_decoded s = Some dec -> z_num kw = Some num -> z_cat kw = Some cat -> z_verbose kw = false -> (k = Sampling -> z_inst kw = None) ->
    NoDup (tb_cols X) -> (2 <= List.length (tb_rows X))%nat -> List.length (tb_rows X) = List.length y -> num <> [] ->
    (forall c, In c num \/ In c cat <-> In c (tb_cols X)) ->
    (forall row, In row (tb_rows X) -> List.length row = List.length (tb_cols X) /\ forall i c, nth_error (tb_cols X) i = Some c -> In c num -> exists q, nth_error row i = Some (CNum q)) ->
    fits (tb_cols X) cat dec -> (k = Lore -> z_inst kw <> Some false -> fits (tb_cols X) cat inst) ->
    exists s', fuzzify_of pandas_cut show show_cell inst k s division kw = (s', None).
  Proof.
    intros DV HS N2 SPD HX HY HXY HD HN HC HV HK ND L2 LY NE COV ROWS FD' FI.
    destruct (division_total division n s kw X y num cat DV HS N2 HX HY HXY HN HC HV ND L2 LY NE COV ROWS) as [vars FV].
    destruct (division_variables show show_cell s division kw X vars n DV HS N2 FV ND L2) as (num' & cat' & HN' & HC' & V). rewrite HN in HN'. rewrite HC in HC'. injection HN' as <-. injection HC' as <-.
    assert (W : forall row, In row (tb_rows X) -> (List.length (tb_cols X) <= List.length row)%nat) by (intros row I; rewrite (proj1 (ROWS row I)); lia).
    assert (FR : forall row, In row (tb_rows X) -> fits (tb_cols X) cat row).
    { intros row I. destruct (ROWS row I) as [L Q]. split; [assumption|]. intros i c EI NC. apply (Q i c EI). destruct (proj2 (COV c) (nth_error_In _ _ EI)); [assumption|contradiction]. }
    assert (M : forall rows, (forall row, In row rows -> fits (tb_cols X) cat row) -> exists dm, dataset_membership_opt rows (map Some vars) = Ok dm).
    { intros rows F. rewrite membership_opt_map. destruct (divided_readable show show_cell division n X num cat vars rows N2 ltac:(destruct (tb_rows X); [cbn in L2; lia|discriminate]) V W SPD F) as [R WD]. apply P_FDT2.membership_total; assumption. }
    destruct (M (tb_rows X) FR) as [xm EX]. destruct (M [dec]) as [dm EDM]; [intros row [<-|[]]; assumption|].
    assert (D : forall s', nb_decoded s' = Some dec -> nb_vars s' = Some (map Some vars) -> exists s2, decoded_membership (s', None) = (s2, None)).
    { intros s' D1 D2. cbn [decoded_membership]. rewrite D1, D2. cbn [ret_opt tryS]. rewrite EDM. cbn [tryS]. eauto. }
    destruct k; cbn [fuzzify_of].
    - unfold sampling_fuzzify. rewrite HK by reflexivity. unfold fuzzify_base. rewrite FV. cbn [tryS fst snd]. rewrite EX. cbn [tryS]. apply D; [exact HD|reflexivity].
    - unfold lore_fuzzify, fuzzify_base. rewrite FV. cbn [tryS fst snd]. rewrite EX. cbn [tryS]. destruct (z_inst kw) as [[|]|] eqn:ZI; cbn [or_default].
      + destruct FI as [F1 F2]; [reflexivity|discriminate|]. replace (Nat.ltb (List.length (tb_cols X)) (List.length inst)) with false by (symmetry; apply Nat.ltb_ge; lia).
        destruct (M [inst]) as [im ->]; [intros row [<-|[]]; split; assumption|]. cbn [tryS]. apply D; [exact HD|reflexivity].
      + apply D; [exact HD|reflexivity].
      + destruct FI as [F1 F2]; [reflexivity|discriminate|]. replace (Nat.ltb (List.length (tb_cols X)) (List.length inst)) with false by (symmetry; apply Nat.ltb_ge; lia).
        destruct (M [inst]) as [im ->]; [intros row [<-|[]]; split; assumption|]. cbn [tryS]. apply D; [exact HD|reflexivity].
  Qed.
End Total2.
