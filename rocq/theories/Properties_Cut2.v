(** * Property C127: fuzzify by equal width and equal frequency *)
From Verif Require Import Prelude M_Fuzzy M_Discretize P_Discretize P_Entropy M_Rule S_Rule M_FDT S_FDT P_FDT P_FDT2 P_FDT3 P_FDT4 M_Counterfactual S_Counterfactual P_Counterfactual M_Explainer S_Explainer P_Explainer P_FuzzyVar P_Metrics
  M_Neighborhood S_Neighborhood P_Neighborhood P_Neighborhood2 P_Neighborhood3 M_Lore M_Distr M_Cut S_Cut P_Cut P_Cut2 Properties_Cut M_Cut2 S_Cut2 P_Cut3 Properties_FDT Properties_Explainer Properties_Neighborhood.
From Coq Require Import Reals Lra.
Local Notation eqb := Prelude.eqb.
Open Scope string_scope.
Open Scope list_scope.
Open Scope Qc_scope.

Definition by_size (division : string) : Prop := division = "equal_width" \/ division = "equal_freq".
(** on a column with two values or more, the oracle [pandas_cut] stands for the calls that C126 computes *)
Theorem C127_calls : forall x n mn mx, least x mn -> greatest x mx -> mn < mx -> (2 <= n)%Z ->
  equal_width (fst (pandas_cut "equal_width" x n)) (snd (pandas_cut "equal_width" x n)) x = width_points x n /\
  equal_freq (fst (pandas_cut "equal_freq" x n)) (snd (pandas_cut "equal_freq" x n)) x = freq_points x n.
Proof. intros x n mn mx H1 H2 L N. split; [apply (width_call x n mn mx)|apply (freq_call x n mn mx)]; assumption. Qed.
Print Assumptions C127_calls.
(** What a successful fuzzify('equal_width') or fuzzify('equal_freq') into two or more sets leaves behind: a variable for every column, with the sets described by [divided] *)
Theorem C127_variables : forall show show_cell inst k s division n kw s' X,
  by_size division -> z_sets kw = Some n -> (2 <= n)%Z ->
  fuzzify_of pandas_cut show show_cell inst k s division kw = (s', None) -> get_X s = Ok X -> NoDup (tb_cols X) -> (2 <= List.length (tb_rows X))%nat ->
  exists num cat vars, z_num kw = Some num /\ z_cat kw = Some cat /\ get_vars s' = Ok (map Some vars) /\ divided show show_cell division n X num cat vars.
Proof.
  intros show show_cell inst k s division n kw s' X D HS N H GX ND L2. destruct (fuzzify_ok pandas_cut show show_cell inst k s division kw H) as (X' & vars & xm & dec & im & HX & FV & _ & _ & _ & _ & V & _).
  unfold get_X in GX. rewrite HX in GX. injection GX as ->. destruct (division_variables show show_cell s division kw X vars n D HS N FV ND L2) as (num & cat & A & B & C). exists num, cat, vars. unfold get_vars. rewrite V. auto.
Qed.
Print Assumptions C127_variables.
Lemma same_vars (vars vars' : list fvar) : map Some vars = map Some vars' -> vars = vars'.
Proof. revert vars'. induction vars as [|a l IH]; intros [|b l'] E; try discriminate; [reflexivity|]. injection E as -> E. f_equal. apply IH. assumption. Qed.
(** the degrees of the values of a numerical column whose points lie apart, or that is nearly constant, lie in [0,1] and add up to one, except that a value above all
    peaks has degree 0 everywhere; this does not happen to nearly constant columns, nor if the greatest value has at most three decimals, and only within 1/2000 of it *)
Theorem C127_degrees : forall show show_cell inst k s division n kw s' X vars cat,
  by_size division -> z_sets kw = Some n -> (2 <= n)%Z ->
  fuzzify_of pandas_cut show show_cell inst k s division kw = (s', None) -> get_X s = Ok X -> NoDup (tb_cols X) -> (2 <= List.length (tb_rows X))%nat ->
  get_vars s' = Ok (map Some vars) -> z_cat kw = Some cat ->
  forall i v qs mx, nth_error vars i = Some v -> column (tb_rows X) i = Ok (map CNum qs) -> ~ In (fv_name v) cat -> nearly_constant qs \/ spaced division n qs -> greatest qs mx ->
  forall q, In q qs -> exists ds, Forall2 (fun t d => membership t (CNum q) = Ok d) (fv_sets v) ds /\ (forall d, In d ds -> 0 <= d /\ d <= 1) /\
    (qsum ds = 1 \/ Forall (fun d => d = 0) ds /\ mx - qc 1 2000 < q /\ ~ three_decimals mx /\ ~ nearly_constant qs).
Proof.
  intros show show_cell inst k s division n kw s' X vars cat D HS N H GX ND L2 GV HC i v qs mx HV CI NC SP GR q IQ.
  destruct (C127_variables show show_cell inst k s division n kw s' X D HS N H GX ND L2) as (num & cat' & vars' & _ & HC' & GV' & V).
  rewrite HC in HC'. injection HC' as <-. rewrite GV in GV'. injection GV' as E. apply same_vars in E. subst vars'.
  destruct (proj2 V i v _ HV CI) as [_ V2]. destruct (V2 NC) as (_ & qs' & pts & sets & EQ & E1 & E2 & A & B). apply map_cnum in EQ. subst qs'. assert (NE : qs <> []) by (intros ->; contradiction). rewrite E1.
  assert (LQ : (2 <= List.length qs)%nat) by (apply column_length in CI; rewrite map_length in CI; lia).
  assert (DEC : nearly_constant qs \/ ~ nearly_constant qs).
  { assert (SS := @small_std_spec qs LQ). destruct (small_std qs); [left; apply SS; reflexivity|right; intro Z; apply SS in Z; discriminate]. }
  destruct DEC as [K|K].
  - destruct (A K) as [A1 A2]. destruct (points_degrees show pts sets qs q E2 A1 (const_lower _ _ NE A2)) as (ds & F & R & S1 & S0); [intros _ q' Hq'; apply A2; exact Hq'|exact IQ|].
    exists ds. split; [exact F|]. split; [exact R|]. left. apply S1. exists q. split; [apply A2; exact IQ|apply Qcle_refl].
  - destruct SP as [SP|SP]; [contradiction|]. destruct (divides_sorted _ _ _ _ N (B K) SP NE) as (D1 & D2 & D3).
    destruct (points_degrees show pts sets qs q E2 D1 D2) as (ds & F & R & S1 & S0); [intro L; lia|exact IQ|]. exists ds. split; [exact F|]. split; [exact R|].
    assert (EN : n = Z.of_nat (S (Z.to_nat (n - 1)))) by lia. assert (K1 : (1 <= Z.to_nat (n - 1))%nat) by lia.
    assert (TOP : exists p, In p pts /\ close p mx /\ (three_decimals mx -> p = mx)).
    { destruct (spread qs) as (mn & mx' & H1 & H2 & LT). { apply varied; [exact LQ|]. destruct (small_std qs) eqn:SS; [|reflexivity]. exfalso. apply K. apply (small_std_spec qs LQ). exact SS. }
      assert (mx' = mx) by (apply (greatest_fun qs); assumption). subst mx'. destruct (B K) as [[-> W]|[-> W]].
      - destruct (C126_equal_width_points qs (Z.to_nat (n - 1)) mn mx H1 H2 LT K1) as (l & E & LL & _ & Z). rewrite <- EN, W in E. injection E as <-.
        destruct (nth_error pts (Z.to_nat (n - 1))) as [p|] eqn:EP; [|apply nth_error_None in EP; lia]. exists p. split; [eapply nth_error_In; exact EP|]. specialize (Z _ _ EP). rewrite part_last in Z by exact K1. exact Z.
      - destruct (proj2 SP eq_refl) as (bs & Q & AP). assert (NDb : NoDup bs) by (apply sorted_NoDup, apart_strict; exact AP).
        destruct (C126_equal_freq_points qs (Z.to_nat (n - 1)) bs mn mx H1 H2 K1 Q NDb) as (l & E & LL & _ & Z & _). rewrite <- EN, W in E. injection E as <-.
        destruct (nth_error pts (Z.to_nat (n - 1))) as [p|] eqn:EP; [|apply nth_error_None in EP; lia]. exists p. split; [eapply nth_error_In; exact EP|]. apply (Z _ _ _ EP). apply (proj2 (proj2 (C126_quantiles qs _ NE K1)) bs mn mx Q H1 H2). }
    destruct (Forall_Exists_dec (fun p => p < q) (fun p => ltac:(destruct (qltb p q) eqn:Q; [left; apply qltb_lt; assumption|right; intro Z; apply qltb_lt in Z; congruence])) pts) as [Z|Z].
    + right. rewrite Forall_forall in Z. split; [exact (S0 Z)|]. destruct TOP as (p & IP & CL & T3). specialize (Z p IP). destruct (close_bounds _ _ CL) as [C1 _]. split; [eapply Qcle_lt_trans; eassumption|]. split; [|exact K].
      intro T. rewrite (T3 T) in Z. assert (Q := proj2 GR q IQ). qlra.
    + left. apply Exists_exists in Z. destruct Z as (p & IP & NP). apply S1. exists p. split; [exact IP|apply Qcnot_lt_le; exact NP].
Qed.
Print Assumptions C127_degrees.
(** fuzzify succeeds whenever the object is fitted with two or more rows, the columns are distinct and all listed, the numerical ones hold numbers and are nearly
    constant or divided at points apart, there is a numerical one, and the decoded instance (for a LORE neighbourhood also the instance) fits the columns *)
Theorem C127_succeeds : forall show show_cell inst k ops division n kw X y dec num cat,
  let s := history pandas_cut show show_cell inst k ops in
  by_size division -> z_sets kw = Some n -> (2 <= n)%Z -> columns_spaced division n X cat ->
  fitted_with s X y -> nb_decoded s = Some dec -> z_num kw = Some num -> z_cat kw = Some cat -> z_verbose kw = false -> (k = Sampling -> z_inst kw = None) ->
  NoDup (tb_cols X) -> (2 <= List.length (tb_rows X))%nat -> List.length (tb_rows X) = List.length y -> num <> [] ->
  (forall c, In c num \/ In c cat <-> In c (tb_cols X)) ->
  (forall row, In row (tb_rows X) -> List.length row = List.length (tb_cols X) /\ forall i c, nth_error (tb_cols X) i = Some c -> In c num -> exists q, nth_error row i = Some (CNum q)) ->
  fits (tb_cols X) cat dec -> (k = Lore -> z_inst kw <> Some false -> fits (tb_cols X) cat inst) ->
  exists s', fuzzify_of pandas_cut show show_cell inst k s division kw = (s', None).
Proof.
  intros show show_cell inst k ops division n kw X y dec num cat s D HS N SP [FX FY] HD HN HC HV HK ND L2 LY NE COV ROWS FD' FI.
  assert (HX : nb_X s = Some X) by (unfold get_X in FX; destruct (nb_X s); [injection FX as ->; reflexivity|discriminate]).
  assert (HY : nb_y s = Some y) by (unfold get_y in FY; destruct (nb_y s); [injection FY as ->; reflexivity|discriminate]).
  assert (HXY : nb_Xy s = true) by (apply (history_Xy pandas_cut show show_cell inst k ops); fold s; congruence).
  eapply division_fuzzify; eassumption.
Qed.
Print Assumptions C127_succeeds.
(** if also numbers and values print differently the result is fit for an explainer: names identify variables and sets, every variable has a set, and
    the instance membership gives, for the decoded instance, the degree of each set *)
Theorem C127_ready_for_explainer : forall show show_cell inst k s division n kw s' X cat,
  by_size division -> z_sets kw = Some n -> (2 <= n)%Z -> columns_spaced division n X cat -> z_cat kw = Some cat ->
  fuzzify_of pandas_cut show show_cell inst k s division kw = (s', None) -> get_X s = Ok X -> NoDup (tb_cols X) -> (2 <= List.length (tb_rows X))%nat ->
  (forall row, In row (tb_rows X) -> List.length row = List.length (tb_cols X)) -> (forall a b, show a = show b -> a = b) -> (forall a b, show_cell a = show_cell b -> a = b) ->
  exists vars dec m, n_vars (view s') = Ok vars /\ n_decoded (view s') = Ok dec /\ n_instance (view s') = Ok m /\ n_X (view s') = Ok (tb_rows X) /\
    distinct_names vars /\ (forall v, In v vars -> fv_sets v <> []) /\ readable vars [dec] /\ row_membership vars dec m /\ proper m.
Proof.
  intros show show_cell inst k s division n kw s' X cat D HS N SP HC H GX ND L2 W IS IC. destruct (fuzzify_ok pandas_cut show show_cell inst k s division kw H) as (X' & vars & xm & dec & im & HX & FV & _ & HD & HI & (D1 & _ & _ & D4 & _) & V & _ & IM).
  unfold get_X in GX. rewrite HX in GX. injection GX as ->. destruct (division_variables show show_cell s division kw X vars n D HS N FV ND L2) as (num & cat' & _ & HC' & C). rewrite HC in HC'. injection HC' as <-.
  destruct (divided_distinct show show_cell division n X num cat vars IS IC N ND) as [DN NE]; [destruct (tb_rows X); [cbn in L2; lia|discriminate]|intros row I; rewrite W by assumption; lia|assumption|assumption|].
  destruct (@single_membership vars dec im DN NE HI) as (R & RM & P). exists vars, dec, (single im). unfold view; cbn [n_vars n_decoded n_instance n_X]. unfold get_vars, get_X, get_instance_membership. rewrite V, D4, HD, IM, D1, HX. cbn [bind ret_opt]. rewrite all_some_map.
  do 8 (split; [first [assumption|reflexivity]|]). assumption.
Qed.
Print Assumptions C127_ready_for_explainer.
(** the whole pipeline: fit, fuzzify and an FDT explainer asked about the decoded instance, as in C83_pipeline *)
Theorem C127_pipeline : forall show show_cell inst k s division n kw s' X cat ord same parse mixed e e' a dec,
  by_size division -> z_sets kw = Some n -> (2 <= n)%Z -> columns_spaced division n X cat -> z_cat kw = Some cat ->
  fuzzify_of pandas_cut show show_cell inst k s division kw = (s', None) -> get_X s = Ok X -> NoDup (tb_cols X) -> (2 <= List.length (tb_rows X))%nat ->
  (forall row, In row (tb_rows X) -> List.length row = List.length (tb_cols X)) -> (forall a b, show a = show b -> a = b) -> (forall a b, show_cell a = show_cell b -> a = b) ->
  (forall p l, Permutation (ord p l) l) ->
  a_nb a = view s' -> n_decoded (view s') = Ok dec -> a_instance a = [dec] -> (0 < or_default (1 / 10000)%R (k_threshold (a_kw a)))%R ->
  fdt_fit ord same parse mixed e a = (e', None) ->
  exists vars m y t rules ms c, n_vars (view s') = Ok vars /\ n_instance (view s') = Ok m /\ get_y s = Ok y /\
    fit (fdt_config vars (a_kw a)) ord fresh_root (tb_rows X) y = Ok t /\ tree_rules t 0 = Ok rules /\
    Forall2 (fun r x => matching m r = Ok x) rules ms /\ In c y /\ hit e' = Ok (map (Z.eqb c) (a_target a)) /\
    (forall j, In j y -> support rules ms j <= support rules ms c /\ ((j < c)%Z -> support rules ms j < support rules ms c)) /\
    ((forall j, In j y -> j <> c -> support rules ms j < support rules ms c) ->
       weighted_vote rules m = Ok c /\ forall fact cf, explain e' = Ok (fact, cf) -> cf <> Some []).
Proof.
  intros show show_cell inst k s division n kw s' X cat ord same parse mixed e e' a dec D HS N SP HC H GX ND L2 W IS IC Ho NB HD HI TH FE.
  destruct (C127_ready_for_explainer show show_cell inst k s division n kw s' X cat D HS N SP HC H GX ND L2 W IS IC) as (vars & dec' & m & V & D' & M & HXX & DN & NE & R & RM & P). rewrite HD in D'. injection D' as <-.
  assert (CD : List.concat (a_instance a) = dec) by (rewrite HI; cbn; apply app_nil_r).
  destruct (C81_explained_class_is_supported ord same parse mixed e a e' vars m) as (X' & y & t & rules & ms & c & A1 & A2 & A3); rewrite ?NB, ?CD; try assumption; [left; exact TH|].
  rewrite NB in A1, A2. rewrite HXX in A1. injection A1 as <-. exists vars, m, y, t, rules, ms, c. split; [assumption|]. split; [assumption|]. split; [|assumption].
  destruct (fuzzify_ok pandas_cut show show_cell inst k s division kw H) as (_ & _ & _ & _ & _ & _ & _ & _ & _ & _ & (_ & D2 & _) & _). unfold view in A2. cbn [n_y] in A2. unfold get_y in *. rewrite D2 in A2. assumption.
Qed.
Print Assumptions C127_pipeline.
(** however numbers print, two or more sets more than one from quantiles of which two coincide: the first two sets of the variable have the same name *)
Theorem C127_repeated_quantiles_share_a_name : forall show show_cell inst k s n kw s' X vars cat,
  z_sets kw = Some n -> (3 <= n)%Z ->
  fuzzify_of pandas_cut show show_cell inst k s "equal_freq" kw = (s', None) -> get_X s = Ok X -> NoDup (tb_cols X) -> (2 <= List.length (tb_rows X))%nat ->
  get_vars s' = Ok (map Some vars) -> z_cat kw = Some cat ->
  forall i v qs bs, nth_error vars i = Some v -> column (tb_rows X) i = Ok (map CNum qs) -> ~ In (fv_name v) cat -> ~ nearly_constant qs ->
  quantiles_of qs (Z.to_nat (n - 1)) bs -> ~ NoDup bs ->
  exists t1 t2 rest, fv_sets v = t1 :: t2 :: rest /\ fs_name t1 = fs_name t2.
Proof.
  intros show show_cell inst k s n kw s' X vars cat HS N H GX ND L2 GV HC i v qs bs HV CI NC K Q NB.
  destruct (C127_variables show show_cell inst k s "equal_freq" n kw s' X (or_intror eq_refl) HS ltac:(lia) H GX ND L2) as (num & cat' & vars' & _ & HC' & GV' & V).
  rewrite HC in HC'. injection HC' as <-. rewrite GV in GV'. injection GV' as E. apply same_vars in E. subst vars'.
  destruct (proj2 V i v _ HV CI) as [_ V2]. destruct (V2 NC) as (_ & qs' & pts & sets & EQ & E1 & E2 & A & B). apply map_cnum in EQ. subst qs'. rewrite E1.
  assert (LQ : (2 <= List.length qs)%nat) by (apply column_length in CI; rewrite map_length in CI; lia).
  destruct (spread qs) as (mn & mx & H1 & H2 & LT). { apply varied; [exact LQ|]. destruct (small_std qs) eqn:SS; [|reflexivity]. exfalso. apply K. apply (small_std_spec qs LQ). exact SS. }
  destruct (proj2 (C126_equal_freq_repeated qs (Z.to_nat (n - 1)) bs mn mx H1 H2 ltac:(lia) Q NB) LT) as (rest & ds & E & _). replace (Z.of_nat (S (Z.to_nat (n - 1)))) with n in E by lia.
  destruct (B K) as [[Z _]|[_ W]]; [discriminate|]. rewrite W in E. injection E as ->. assert (M := continuous_names (map show (mn :: mn :: rest)) (mn :: mn :: rest) (map_length _ _) E2).
  destruct sets as [|s1 [|s2 sets]]; try discriminate M. cbn [map] in M. injection M as M1 M2 _. exists (FC s1), (FC s2), (map FC sets). split; [reflexivity|]. cbn [fs_name]. congruence.
Qed.
Print Assumptions C127_repeated_quantiles_share_a_name.
(** consequence: with repeated quantiles a tree looks degrees up by name but reads the sets by position, so the rows of the column that it trained on are predicted by the
    sets of other rows.  Here the column determines the class; nevertheless every row gets class 0, and the two rules contradict each other *)
Definition rq_show (q : Qc) : string := if qeqb q 0 then "0" else "1".
Definition rq_table : table := mkTb ["x"] [[CNum 0]; [CNum 0]; [CNum 1]; [CNum 1]].
Definition rq_y : list Z := [0; 0; 1; 1]%Z.
Definition rq_outcome : outcome := mkO (Ok [CNum 1]) (Ok rq_table) (Ok tt) (Ok rq_table) (Ok rq_y) (Ok []).
Definition rq_kw : zargs := mkZ (Some 4%Z) false (Some ["x"]) (Some []) None None.
Definition rq_var : fvar := mkV "x" [FC (mkC "0" 0 0 0 false); FC (mkC "0" 0 0 1 false); FC (mkC "1" 0 1 1 false)].
Definition rq_cfg : fdt_cfg := mkFDT [rq_var] (1 / 10000)%R 10 2 qmin AggVote.
Definition rq_tree : tree :=
  Tree false [Tree true [] (Some [(0%Z, 1); (1%Z, 0)]) 1 (Some (0, 0)%nat) (Some rq_var) [1; 1; 0; 0];
              Tree true [] (Some [(0%Z, 0); (1%Z, 1)]) 1 (Some (0, 1)%nat) (Some rq_var) [0; 0; 1; 1]] None 0 None None [1; 1; 1; 1].
Lemma rq_entropy : fuzzy_entropy [1; 1; 1; 1] rq_y = 1%R.
Proof.
  assert (G : forall c, c = 0%Z \/ c = 1%Z -> entropy_term [1; 1; 1; 1] rq_y c = (1 / 2)%R).
  { intros c Hc. unfold entropy_term. assert (CC : class_card [1; 1; 1; 1] rq_y c = 1 + 1) by (destruct Hc as [-> | ->]; qex). rewrite CC. assert (Q : qltb 0 (1 + 1) = true) by reflexivity. rewrite Q.
    assert (E : qr ((1 + 1) / qsum [1; 1; 1; 1]) = (/ 2)%R).
    { replace ((1 + 1) / qsum [1; 1; 1; 1]) with (1 / (1 + 1)) by qex. rewrite qr_div by discriminate. rewrite qr_plus, !qr_1. field. }
    rewrite E, log2_half. lra. }
  unfold fuzzy_entropy. change (zunique rq_y) with [0; 1]%Z. cbn [map]. rewrite !G by auto. unfold rsum. cbn. lra.
Qed.
Lemma rq_pure m : m = [1; 1; 0; 0] \/ m = [0; 0; 1; 1] -> fuzzy_entropy m rq_y = 0%R.
Proof.
  intro H. apply fuzzy_entropy_zero_iff.
  - destruct H as [-> | ->]; repeat constructor; discriminate.
  - destruct H as [-> | ->]; reflexivity.
  - intros i j ti tj ci cj Ti Tj Ci Cj Pi Pj. unfold rq_y in *. destruct H as [-> | ->];
      (destruct i as [|[|[|[|i]]]]; cbn in Ti, Ci; [| | | |destruct i; discriminate]); (destruct j as [|[|[|[|j]]]]; cbn in Tj, Cj; [| | | |destruct j; discriminate]);
      injection Ti as <-; injection Tj as <-; try discriminate Pi; try discriminate Pj; congruence.
Qed.
Definition rq_xm : xmem := [("x", [("0", [1; 1; 0; 0]); ("1", [0; 0; 1; 1])])].
Lemma rq_membership : dataset_membership (tb_rows rq_table) [rq_var] = Ok rq_xm.
Proof. qex. Qed.
Lemma rq_best : max_f_gain qmin [1; 1; 1; 1] ["x"] rq_xm rq_y = Ok ("x", 1%R, [("0", [1; 1; 0; 0]); ("1", [0; 0; 1; 1])]).
Proof.
  assert (G : feature_gain qmin [1; 1; 1; 1] rq_xm rq_y "x" = Ok (1%R, [("0", [1; 1; 0; 0]); ("1", [0; 0; 1; 1])])).
  { unfold feature_gain. rewrite rq_entropy. change (dget "x" rq_xm) with (Some [("0", [1; 1; 0; 0]); ("1", [0; 0; 1; 1])]). cbn [ret_opt bind].
    replace (child_mus qmin [1; 1; 1; 1] [("0", [1; 1; 0; 0]); ("1", [0; 0; 1; 1])]) with [("0", [1; 1; 0; 0]); ("1", [0; 0; 1; 1])] by qex.
    change (qeqb (qsum [1; 1; 1; 1]) 0) with false. cbv iota. apply (f_equal (@Ok _)). f_equal. cbn [map snd]. rewrite !rq_pure by auto. unfold rsum. cbn [fold_right]. lra. }
  unfold max_f_gain. cbn [foldM]. rewrite G. cbn [bind fst snd]. replace (Rltb 0 1) with true by (symmetry; apply Rltb_lt; lra). reflexivity.
Qed.
Lemma rq_fit ord : (forall p l, Permutation (ord p l) l) -> fit rq_cfg ord fresh_root (tb_rows rq_table) rq_y = Ok rq_tree.
Proof.
  intro Ho. assert (O1 : forall p c, ord p [c] = [c]) by (intros p c; apply Permutation_length_1_inv, Permutation_sym, Ho). assert (O0 : forall p, ord p [] = []) by (intro p; apply Permutation_nil, Permutation_sym, Ho).
  unfold fit. change (negb (Nat.eqb (List.length (tb_rows rq_table)) (List.length rq_y)) || Nat.eqb (List.length rq_y) 0)%bool with false. cbv iota. change (f_vars rq_cfg) with [rq_var]. rewrite rq_membership. cbn [bind].
  change (f_features rq_cfg) with ["x"]. cbn [List.length rq_y]. cbn [repeat]. cbn [partial_fit t_mu fresh_root new_tree t_leaf t_children t_class t_level t_value t_var]. rewrite O1. fold rq_y. rewrite rq_best. cbn [bind].
  assert (S : stop_met rq_cfg 1 (masked [1; 1; 1; 1] rq_y) 0 = false).
  { unfold stop_met. change (f_threshold rq_cfg) with (1 / 10000)%R. assert (Rltb 1 (1 / 10000) = false) as -> by (apply Rltb_ge; lra). reflexivity. }
  rewrite S. change (dget "x" rq_xm) with (Some [("0", [1; 1; 0; 0]); ("1", [0; 0; 1; 1])]). cbn [ret_opt bind dkeys map fst].
  change (enumerate ["0"; "1"]) with [(0%nat, "0"); (1%nat, "1")]. cbn [mapM]. change (memb "x" ["x"]) with true. cbn [negb].
  change (dget "x" (f_positions (f_vars rq_cfg))) with (Some 0%nat). cbn [ret_opt bind]. change (nth_error (f_vars rq_cfg) 0) with (Some rq_var). cbn [ret_opt bind].
  change (dget "0" [("0", [1; 1; 0; 0]); ("1", [0; 0; 1; 1])]) with (Some [1; 1; 0; 0]). change (dget "1" [("0", [1; 1; 0; 0]); ("1", [0; 0; 1; 1])]) with (Some [0; 0; 1; 1]). cbn [ret_opt bind].
  change (qltb 0 (qsum [1; 1; 0; 0])) with true. change (qltb 0 (qsum [0; 0; 1; 1])) with true. cbv iota. change (remove string_dec "x" ["x"]) with (@nil string). rewrite !O0.
  cbn [new_tree t_mu max_f_gain foldM bind].
  assert (S1 : forall d, stop_met rq_cfg 0 (masked [1; 1; 0; 0] rq_y) d = true) by (intro d; reflexivity). assert (S2 : forall d, stop_met rq_cfg 0 (masked [0; 0; 1; 1] rq_y) d = true) by (intro d; reflexivity). rewrite S1, S2.
  assert (V1 : get_class_value [1; 1; 0; 0] rq_y = Ok [(0%Z, 1); (1%Z, 0)]) by qex. assert (V2 : get_class_value [0; 0; 1; 1] rq_y = Ok [(0%Z, 0); (1%Z, 1)]) by qex. rewrite V1, V2. reflexivity.
Qed.
Theorem C127_repeated_quantiles_confuse_the_tree_refuted : exists show X y kw vars cfg t a,
  (forall show_cell k ord, (forall p l, Permutation (ord p l) l) ->
     let s := history pandas_cut show show_cell [CNum 1] k [Fit (mkO (Ok [CNum 1]) (Ok X) (Ok tt) (Ok X) (Ok y) (Ok [])); Fuzzify "equal_freq" kw] in
     get_X s = Ok X /\ get_y s = Ok y /\ get_vars s = Ok (map Some vars) /\ fit cfg ord fresh_root (tb_rows X) y = Ok t) /\
  show 0 <> show 1 /\ f_vars cfg = vars /\ (0 < f_threshold cfg < 1)%R /\
  tb_rows X = [[CNum 0]; [CNum 0]; [CNum 1]; [CNum 1]] /\ y = [0; 0; 1; 1]%Z /\
  predict cfg t (tb_rows X) = Ok [0; 0; 0; 0]%Z /\ tree_rules t 0 = Ok [mkR a 0%Z 1; mkR a 1%Z 1].
Proof.
  exists rq_show, rq_table, rq_y, rq_kw, [rq_var], rq_cfg, rq_tree, [("x", "0")]. split; [|split; [discriminate|split; [reflexivity|split; [cbn [f_threshold rq_cfg]; lra|split; [reflexivity|split; [reflexivity|split; qex]]]]]].
  intros show_cell k ord Ho s. split; [destruct k; reflexivity|]. split; [destruct k; reflexivity|]. split; [|apply rq_fit; exact Ho].
  destruct k; qex.
Qed.
Print Assumptions C127_repeated_quantiles_confuse_the_tree_refuted.

(** instances: the table of three rows, divided into three sets both ways *)
Definition cd_table : table := mkTb ["x"; "c"] [[CNum 0; CStr "a"]; [CNum (qz 2); CStr "b"]; [CNum (qz 10); CStr "a"]].
Definition cd_outcome : outcome := mkO (Ok [CNum (qz 1); CStr "a"]) (Ok cd_table) (Ok tt) (Ok cd_table) (Ok [0; 1; 1]%Z) (Ok []).
Definition cd_kw : zargs := mkZ (Some 3%Z) false (Some ["x"]) (Some ["c"]) None None.
Lemma cd_spaced division : columns_spaced division 3 cd_table ["c"].
Proof.
  intros i c qs Hi NC HC. right. destruct i as [|[|i]]; [|injection Hi as <-; exfalso; apply NC; left; reflexivity|destruct i; discriminate].
  assert (E : qs = [0; qz 2; qz 10]). { apply map_cnum. cbn in HC. injection HC as <-. reflexivity. } subst qs. split; intros _.
  - exists 0, (qz 10). split; [split; [left; reflexivity|intros v [<-|[<-|[<-|[]]]]; discriminate]|]. split; [split; [right; right; left; reflexivity|intros v [<-|[<-|[<-|[]]]]; discriminate]|reflexivity].
  - exists [0; qz 2; qz 10]. split; [|repeat constructor]. change (Z.to_nat (3 - 1)) with 2%nat. replace [0; qz 2; qz 10] with (qcut_bins [0; qz 2; qz 10] 2) at 2 by qex. apply quantiles_exist; [lia|discriminate].
Qed.
Example C127_instance : forall division, by_size division -> forall k, exists s',
  fuzzify_of pandas_cut show_q show_c [CNum 1; CStr "a"] k (history pandas_cut show_q show_c [CNum 1; CStr "a"] k [Fit cd_outcome]) division cd_kw = (s', None) /\
  columns_spaced division 3 cd_table ["c"] /\ fitted_with (history pandas_cut show_q show_c [CNum 1; CStr "a"] k [Fit cd_outcome]) cd_table [0; 1; 1]%Z.
Proof.
  intros division D k. assert (FW : fitted_with (history pandas_cut show_q show_c [CNum 1; CStr "a"] k [Fit cd_outcome]) cd_table [0; 1; 1]%Z) by (destruct k; split; reflexivity).
  destruct (C127_succeeds show_q show_c [CNum 1; CStr "a"] k [Fit cd_outcome] division 3 cd_kw cd_table [0; 1; 1]%Z [CNum (qz 1); CStr "a"] ["x"] ["c"]) as [s' H]; try reflexivity; try assumption.
  - lia.
  - apply cd_spaced.
  - destruct k; reflexivity.
  - repeat constructor; cbn; intuition discriminate.
  - cbn. lia.
  - discriminate.
  - intro c. cbn. tauto.
  - intros row I. split; [destruct I as [<-|[<-|[<-|[]]]]; reflexivity|]. intros i c Hi [<-|[]]. destruct I as [<-|[<-|[<-|[]]]]; (destruct i as [|[|i]]; [eexists; reflexivity|discriminate|destruct i; discriminate]).
  - split; [reflexivity|]. intros i c Hi N. destruct i as [|[|i]]; [eexists; reflexivity| |destruct i; discriminate]. injection Hi as <-. exfalso. apply N. left. reflexivity.
  - intros _ _. split; [reflexivity|]. intros i c Hi N. destruct i as [|[|i]]; [eexists; reflexivity| |destruct i; discriminate]. injection Hi as <-. exfalso. apply N. left. reflexivity.
  - exists s'. split; [exact H|]. split; [apply cd_spaced|exact FW].
Qed.
