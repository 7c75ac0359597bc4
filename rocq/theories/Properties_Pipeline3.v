(** * Property C133: a neighbourhood fuzzified by equal width or equal frequency serves the explainers *)
From Verif Require Import Prelude M_Fuzzy P_FuzzySet P_FuzzyVar M_Discretize S_Discretize M_Rule S_Rule P_Rule M_FDT S_FDT P_FDT P_FDT2 P_FDT3 P_FDT4 M_FBDT M_ID3 M_Metrics M_Factual S_Factual M_Counterfactual S_Counterfactual P_Counterfactual
  M_Explainer S_Explainer P_Explainer S_FBDT S_FBDT2 P_Entropy Properties_Discretize Properties_FDT Properties_FBDT Properties_FBDT2 Properties_FBDT3 Properties_Explainer M_Neighborhood S_Neighborhood P_Neighborhood P_Neighborhood2 P_Neighborhood3 Properties_Neighborhood
  S_Success P_Success Properties_Success Properties_Success2 S_Pipeline P_Pipeline S_Success2 P_Success2 Properties_Success3 Properties_Pipeline Properties_Pipeline2
  M_Cut S_Cut P_Cut P_Cut2 Properties_Cut M_Cut2 S_Cut2 P_Cut3 Properties_Cut2.
From Coq Require Import Reals Lra Ascii.
Local Notation eqb := Prelude.eqb.
Open Scope string_scope.
Open Scope list_scope.
Open Scope Qc_scope.

Section After.
  Variables (show : Qc -> string) (show_cell : cell -> string) (inst : list cell) (k : kind) (s : nbhd) (division : string) (n : Z) (kw : zargs) (s' : nbhd) (X : table) (y : list Z) (cat : list string).
  (** the object has the rows [X] labelled [y] and fuzzify('equal_width' or 'equal_freq') into [n >= 2] sets succeeded, the points of every numerical column lying apart; columns are distinct,
      there are two rows or more, each with a value per column and numbers in those that are not categorical; numbers and values print differently *)
  Definition sized : Prop :=
    by_size division /\ z_sets kw = Some n /\ (2 <= n)%Z /\ columns_spaced division n X cat /\
    fuzzify_of pandas_cut show show_cell inst k s division kw = (s', None) /\ fitted_with s X y /\ z_cat kw = Some cat /\
    NoDup (tb_cols X) /\ (2 <= List.length (tb_rows X))%nat /\ List.length (tb_rows X) = List.length y /\
    (forall row, In row (tb_rows X) -> fits (tb_cols X) cat row) /\ (forall a b, show a = show b -> a = b) /\ (forall a b, show_cell a = show_cell b -> a = b).
  Lemma sized_wide : sized -> forall row, In row (tb_rows X) -> (List.length (tb_cols X) <= List.length row)%nat.
  Proof. intros (_ & _ & _ & _ & _ & _ & _ & _ & _ & _ & FR & _) row I. destruct (FR row I) as [-> _]. apply le_n. Qed.
  Lemma sized_rows : sized -> tb_rows X <> [].
  Proof. intros (_ & _ & _ & _ & _ & _ & _ & _ & L2 & _) E. rewrite E in L2. cbn in L2. lia. Qed.
  Lemma sized_vars vars : sized -> n_vars (view s') = Ok vars -> exists num, divided show show_cell division n X num cat vars.
  Proof.
    intros (D & HS & N & SP & H & FW & HC & ND & L2 & _) GV. destruct (C127_variables show show_cell inst k s division n kw s' X D HS N H (proj1 FW) ND L2) as (num & cat' & vars' & _ & HC' & GV' & V).
    rewrite HC in HC'. injection HC' as <-. unfold view in GV. cbn [n_vars] in GV. rewrite GV' in GV. cbn [bind] in GV. rewrite all_some_map in GV. injection GV as <-. eauto.
  Qed.
  (** the sets of a numerical column *)
  Lemma sized_num vars i v : sized -> n_vars (view s') = Ok vars -> nth_error vars i = Some v -> ~ In (fv_name v) cat ->
    exists qs pts sets, column (tb_rows X) i = Ok (map CNum qs) /\ fv_sets v = map FC sets /\ continuous_sets "point_set" (zip (map show pts) pts) = Ok sets /\
      StronglySorted Qclt pts /\ (exists m, In m pts /\ least qs m) /\ (List.length pts = 1%nat -> forall q, In q qs -> In q pts).
  Proof.
    intros SZ GV HV NC. destruct (sized_vars vars SZ GV) as [num V]. assert (W := sized_wide SZ). assert (NR := sized_rows SZ). destruct SZ as (D & HS & N & SP & _).
    exact (@divided_num show show_cell division n X num cat vars i v N NR V W SP HV NC).
  Qed.
  Lemma sized_ready dec : sized -> n_decoded (view s') = Ok dec -> exists vars m, n_vars (view s') = Ok vars /\ n_instance (view s') = Ok m /\ n_X (view s') = Ok (tb_rows X) /\
    distinct_names vars /\ (forall v, In v vars -> fv_sets v <> []) /\ readable vars [dec] /\ row_membership vars dec m /\ proper m /\ readable vars (tb_rows X) /\ y <> [] /\ n_y (view s') = Ok y.
  Proof.
    intros SZ HD. assert (W := sized_wide SZ). assert (NR := sized_rows SZ). assert (SZ' := SZ). destruct SZ' as (D & HS & N & SP & H & FW & HC & ND & L2 & LY & FR & IS & IC).
    destruct (C127_ready_for_explainer show show_cell inst k s division n kw s' X cat D HS N SP HC H (proj1 FW) ND L2 (fun row I => proj1 (FR row I)) IS IC) as (vars & dec' & m & V1 & V2 & V3 & V4 & V5 & V6 & V7 & V8 & V9).
    rewrite HD in V2. injection V2 as <-. destruct (sized_vars vars SZ V1) as [num V]. exists vars, m. repeat (split; [assumption|]).
    split; [exact (proj1 (@divided_readable show show_cell division n X num cat vars (tb_rows X) N NR V W SP FR))|].
    split; [intro E; rewrite E in LY; cbn in LY; lia|]. destruct (fuzzify_ok pandas_cut show show_cell inst k s division kw H) as (_ & _ & _ & _ & _ & _ & _ & _ & _ & _ & (_ & D2 & _) & _).
    destruct FW as [_ FY]. unfold view, get_y in *. cbn [n_y]. rewrite D2. exact FY.
  Qed.
End After.

Lemma continuous_peaks (show : Qc -> string) pts sets : pts <> [] -> continuous_sets "point_set" (zip (map show pts) pts) = Ok sets -> map pb sets = pts.
Proof. intros N E. destruct pts as [|f rest]; [congruence|]. exact (set_peaks show f rest sets E). Qed.

(** A categorical column has one set per value; a nearly constant numerical column one per value; every other numerical column has exactly the [n] sets asked for. *)
Theorem C133_sets : forall show show_cell inst k s division n kw s' X y cat vars i v col,
  sized show show_cell inst k s division n kw s' X y cat -> n_vars (view s') = Ok vars -> nth_error vars i = Some v -> column (tb_rows X) i = Ok col ->
  (In (fv_name v) cat -> exists values, NoDup values /\ (forall x, In x values <-> In x col) /\ List.length (fv_sets v) = List.length values) /\
  (~ In (fv_name v) cat -> exists qs, col = map CNum qs /\ (nearly_constant qs -> exists values, NoDup values /\ (forall x, In x values <-> In x qs) /\ List.length (fv_sets v) = List.length values) /\
     (~ nearly_constant qs -> Z.of_nat (List.length (fv_sets v)) = n)).
Proof.
  intros show show_cell inst k s division n kw s' X y cat vars i v col SZ GV HV C. destruct (sized_vars _ _ _ _ _ _ _ _ _ _ _ _ vars SZ GV) as [num V]. destruct (proj2 V i v col HV C) as [V1 V2]. split.
  - intro J. destruct (V1 J) as (values & NV & IV & E). exists values. split; [assumption|]. split; [assumption|]. rewrite E. apply map_length.
  - intro J. assert (CI : nth_error (tb_cols X) i = Some (fv_name v)) by (rewrite <- (proj1 V); apply map_nth_error; exact HV).
    destruct (V2 J) as (_ & qs & pts & sets & -> & E & ES & A & B). exists qs. split; [reflexivity|]. assert (L2 := SZ). destruct L2 as (D & _ & N & SP & _ & _ & _ & _ & L2 & _).
    assert (LQ : (2 <= List.length qs)%nat) by (apply column_length in C; rewrite map_length in C; lia). assert (NE : qs <> []) by (intros ->; cbn in LQ; lia). split.
    + intro K. destruct (A K) as [A1 A2]. exists pts. split; [apply sorted_NoDup; assumption|]. split; [assumption|].
      assert (NP : pts <> []) by (intros ->; destruct qs as [|q qs]; [congruence|]; apply (proj2 (A2 q)); left; reflexivity). rewrite E, map_length, <- (map_length pb), (continuous_peaks show pts sets NP ES). reflexivity.
    + intro K. assert (LP : Z.of_nat (List.length pts) = n).
      { destruct (SP i _ qs CI J C) as [Q|Q]; [contradiction|]. assert (EN : n = Z.of_nat (S (Z.to_nat (n - 1)))) by lia. assert (K1 : (1 <= Z.to_nat (n - 1))%nat) by lia.
        destruct (spread qs) as (mn & mx & H1 & H2 & LT). { apply varied; [exact LQ|]. destruct (small_std qs) eqn:SS; [|reflexivity]. exfalso. apply K. apply (small_std_spec qs LQ). exact SS. }
        destruct (B K) as [[-> W]|[-> W]].
        - destruct (C126_equal_width_points qs (Z.to_nat (n - 1)) mn mx H1 H2 LT K1) as (l & E' & LL & _). rewrite <- EN, W in E'. injection E' as <-. lia.
        - destruct (proj2 Q eq_refl) as (bs & QB & AP). assert (NDb : NoDup bs) by (apply sorted_NoDup, apart_strict; exact AP).
          destruct (C126_equal_freq_points qs (Z.to_nat (n - 1)) bs mn mx H1 H2 K1 QB NDb) as (l & E' & LL & _). rewrite <- EN, W in E'. injection E' as <-. lia. }
      assert (NP : pts <> []) by (intros ->; cbn in LP; lia). rewrite E, map_length, <- (map_length pb), (continuous_peaks show pts sets NP ES). exact LP.
Qed.
Print Assumptions C133_sets.

(** so a column with two different values has two sets or more *)
Theorem C133_two_sets : forall show show_cell inst k s division n kw s' X y cat vars i v,
  sized show show_cell inst k s division n kw s' X y cat -> n_vars (view s') = Ok vars -> nth_error vars i = Some v -> two_values X i -> (2 <= List.length (fv_sets v))%nat.
Proof.
  intros show show_cell inst k s division n kw s' X y cat vars i v SZ GV HV (r & r' & Ir & Ir' & NN). destruct (sized_vars _ _ _ _ _ _ _ _ _ _ _ _ vars SZ GV) as [num V]. assert (W := sized_wide _ _ _ _ _ _ _ _ _ _ _ _ SZ).
  destruct (@divided_nth show show_cell division n X num cat vars i v V W HV) as (col & C & LC & NC).
  apply In_nth_error in Ir. destruct Ir as [a Ha]. apply In_nth_error in Ir'. destruct Ir' as [b Hb]. assert (E1 := NC _ _ Ha). assert (E2 := NC _ _ Hb).
  assert (L1 : (a < List.length (tb_rows X))%nat) by (apply nth_error_Some; congruence). assert (L2 : (b < List.length (tb_rows X))%nat) by (apply nth_error_Some; congruence).
  destruct (nth_error col a) as [x|] eqn:Ex; [|apply nth_error_None in Ex; lia]. destruct (nth_error col b) as [x'|] eqn:Ex'; [|apply nth_error_None in Ex'; lia]. assert (NX : x <> x') by congruence.
  assert (TW : forall A (l : list A) u w, In u l -> In w l -> u <> w -> (2 <= List.length l)%nat).
  { intros A l u w Iu Iw Nu. destruct l as [|z [|z' l]]; [destruct Iu| |cbn; lia]. destruct Iu as [->|[]]. destruct Iw as [->|[]]. congruence. }
  destruct (C133_sets _ _ _ _ _ _ _ _ _ _ _ _ vars i v col SZ GV HV C) as [S1 S2]. destruct (in_dec string_dec (fv_name v) cat) as [J|J].
  - destruct (S1 J) as (values & _ & IV & ->). apply (TW _ values x x'); [apply IV; exact (nth_error_In _ _ Ex)|apply IV; exact (nth_error_In _ _ Ex')|assumption].
  - destruct (S2 J) as (qs & -> & Q1 & Q2). rewrite nth_error_map in Ex, Ex'. destruct (nth_error qs a) as [q|] eqn:Eq; [|discriminate]. destruct (nth_error qs b) as [q'|] eqn:Eq'; [|discriminate]. cbn in Ex, Ex'. injection Ex as <-. injection Ex' as <-. assert (NQ : q <> q') by congruence.
    assert (LQ : (2 <= List.length qs)%nat) by (apply (TW _ qs q q'); [exact (nth_error_In _ _ Eq)|exact (nth_error_In _ _ Eq')|assumption]).
    assert (SD : nearly_constant qs \/ ~ nearly_constant qs) by (rewrite <- (@small_std_spec qs LQ); destruct (small_std qs); [left; reflexivity|right; discriminate]). destruct SD as [S|S].
    + destruct (Q1 S) as (values & _ & IV & ->). apply (TW _ values q q'); [apply IV; exact (nth_error_In _ _ Eq)|apply IV; exact (nth_error_In _ _ Eq')|assumption].
    + specialize (Q2 S). destruct SZ as (_ & _ & N & _). lia.
Qed.
Print Assumptions C133_two_sets.

(** a row between the peaks of every numerical variable belongs to some set of every variable with degree 1/2 or more *)
Theorem C133_half : forall show show_cell inst k s division n kw s' X y cat vars row,
  sized show show_cell inst k s division n kw s' X y cat -> n_vars (view s') = Ok vars -> row_among vars row -> covered vars row (qc 1 2).
Proof.
  intros show show_cell inst k s division n kw s' X y cat vars row SZ GV A i v HV. destruct (A i v HV) as (x & Hx & AX).
  assert (G : exists j t d, nth_error (fv_sets v) j = Some t /\ membership t x = Ok d /\ qc 1 2 <= d).
  { destruct AX as [[name I]|(q & c & c' & -> & I & I' & L & L')].
    - apply In_nth_error in I. destruct I as [j I]. exists j, (FD name x), 1. split; [assumption|]. split; [rewrite discrete_degree; destruct (eq_dec x x); [reflexivity|congruence]|discriminate].
    - destruct (in_dec string_dec (fv_name v) cat) as [J|J].
      { destruct (sized_vars _ _ _ _ _ _ _ _ _ _ _ _ vars SZ GV) as [num V]. destruct (@divided_nth show show_cell division n X num cat vars i v V (sized_wide _ _ _ _ _ _ _ _ _ _ _ _ SZ) HV) as (col & C & _).
        destruct (proj1 (proj2 V i v col HV C) J) as (values & _ & _ & E). rewrite E in I. apply in_map_iff in I. destruct I as (z & Q & _). discriminate. }
      destruct (sized_num _ _ _ _ _ _ _ _ _ _ _ _ vars i v SZ GV HV J) as (qs & pts & sets & _ & E & ES & SS & (mn & IM & _) & _). assert (NP : pts <> []) by (intros ->; destruct IM). assert (PK := continuous_peaks show pts sets NP ES). rewrite E in I, I' |- *.
      apply in_map_iff in I. destruct I as (c1 & Q & I). injection Q as ->. apply in_map_iff in I'. destruct I' as (c2 & Q & I'). injection Q as ->.
      assert (Pc : In (pb c) pts) by (rewrite <- PK; apply in_map; assumption). assert (Pc' : In (pb c') pts) by (rewrite <- PK; apply in_map; assumption).
      destruct pts as [|f [|g rest]]; [congruence| |].
      + destruct Pc as [Pc|[]]. destruct Pc' as [Pc'|[]]. cbn in ES. injection ES as <-. assert (q = f) by (apply Qcle_antisym; congruence). subst q.
        exists 0%nat. eexists. exists 1. split; [reflexivity|]. split; [|discriminate]. rewrite membership_valid by (split; apply Qcle_refl). f_equal. apply tri_peak.
      + set (d := zip (map show (f :: g :: rest)) (f :: g :: rest)) in *. assert (SD : map snd d = f :: g :: rest) by apply map_snd_zip_show.
        assert (LD : (2 <= List.length d)%nat) by (rewrite <- (map_length snd), SD; cbn; lia).
        destruct (@C02_all "point_set"%string d q LD) as (sets' & ds & E' & F & S1 & S2 & _); [rewrite SD; assumption|]. rewrite ES in E'. injection E' as <-. rewrite SD in S1.
        destruct (half_list ds) as (j & dj & Ej & Lj); [|exact S2|apply S1; eauto|].
        * intros m I0. apply In_nth_error in I0. destruct I0 as [a I0]. destruct (Forall2_nth_r F a I0) as (t & _ & M). apply membership_Ok in M. destruct M as [[A1 B1] ->]. apply tri_01; assumption.
        * destruct (Forall2_nth_r F j Ej) as (t & Hs & M). exists j, (FC t), dj. split; [apply map_nth_error; assumption|auto]. }
  destruct G as (j & t & d & Ht & M & L). exists j, t. split; [assumption|]. unfold lit_degree. cbn [fst snd]. rewrite HV, Ht, Hx, M. exact L.
Qed.
Print Assumptions C133_half.

(** A row of the table lies among the sets as soon as each of its numbers is at least 1/2000 below the greatest of its column, or that greatest number has at most three decimals, or
    the column is nearly constant. *)
Theorem C133_rows_among : forall show show_cell inst k s division n kw s' X y cat vars row,
  sized show show_cell inst k s division n kw s' X y cat -> n_vars (view s') = Ok vars -> In row (tb_rows X) ->
  (forall i c qs mx q, nth_error (tb_cols X) i = Some c -> ~ In c cat -> column (tb_rows X) i = Ok (map CNum qs) -> greatest qs mx -> nth_error row i = Some (CNum q) ->
     nearly_constant qs \/ three_decimals mx \/ q <= mx - qc 1 2000) -> row_among vars row.
Proof.
  intros show show_cell inst k s division n kw s' X y cat vars row SZ GV IR OK i v HV. destruct (sized_vars _ _ _ _ _ _ _ _ _ _ _ _ vars SZ GV) as [num V].
  assert (W := sized_wide _ _ _ _ _ _ _ _ _ _ _ _ SZ). apply In_nth_error in IR. destruct IR as [r HR].
  destruct (@divided_nth show show_cell division n X num cat vars i v V W HV) as (col & C & LC & NC). assert (CI : nth_error (tb_cols X) i = Some (fv_name v)) by (rewrite <- (proj1 V); apply map_nth_error; exact HV).
  assert (Lr : (r < List.length (tb_rows X))%nat) by (apply nth_error_Some; congruence). destruct (nth_error col r) as [x|] eqn:Ex; [|apply nth_error_None in Ex; lia].
  assert (Hx : nth_error row i = Some x) by (rewrite <- (NC r row HR); assumption). exists x. split; [assumption|]. destruct (in_dec string_dec (fv_name v) cat) as [J|J].
  - left. destruct (proj1 (proj2 V i v col HV C) J) as (values & _ & IV & E). exists (show_cell x). rewrite E. apply in_map_iff. exists x. split; [reflexivity|]. apply IV. exact (nth_error_In _ _ Ex).
  - right. destruct (sized_num _ _ _ _ _ _ _ _ _ _ _ _ vars i v SZ GV HV J) as (qs & pts & sets & C' & E & ES & SS & (mn & IM & LM) & ONE). rewrite C in C'. injection C' as ->.
    rewrite nth_error_map in Ex. destruct (nth_error qs r) as [q|] eqn:Eq; [|discriminate]. cbn in Ex. injection Ex as <-. assert (IQ := nth_error_In _ _ Eq).
    assert (NP : pts <> []) by (intros ->; destruct IM). assert (PK := continuous_peaks show pts sets NP ES).
    assert (NQ : qs <> []) by (intros ->; destruct IQ). destruct (max_ex qs NQ) as (mx & _ & GR).
    assert (SZ' := SZ). destruct SZ' as (D & HS & N & SP & H & FW & HC & ND & L2 & _).
    assert (GV' : get_vars s' = Ok (map Some vars)). { destruct (C127_variables show show_cell inst k s division n kw s' X D HS N H (proj1 FW) ND L2) as (num' & cat' & vars' & _ & _ & GV' & _). unfold view in GV. cbn [n_vars] in GV. rewrite GV' in GV. cbn [bind] in GV. rewrite all_some_map in GV. injection GV as <-. assumption. }
    destruct (C127_degrees show show_cell inst k s division n kw s' X vars cat D HS N H (proj1 FW) ND L2 GV' HC i v qs mx HV C J (SP i _ qs CI J C) GR q IQ) as (ds & F & _ & S).
    assert (TOP : exists p, In p pts /\ q <= p).
    { destruct (Forall_Exists_dec (fun p => p < q) (fun p => ltac:(destruct (qltb p q) eqn:Q; [left; apply qltb_lt; assumption|right; intro Z; apply qltb_lt in Z; congruence])) pts) as [Z|Z].
      - exfalso. rewrite Forall_forall in Z. destruct (@points_degrees show pts sets qs q ES SS (ex_intro _ mn (conj IM LM)) ONE IQ) as (ds' & F' & _ & _ & S0). specialize (S0 Z). rewrite <- E in F'.
        assert (EQ : ds' = ds). { clear - F F'. revert ds' F'. induction F as [|t d l l' M F IH]; intros ds' F'; inversion F' as [|? d' ? l'' M' F'']; subst; [reflexivity|]. f_equal; [congruence|apply IH; assumption]. } subst ds'.
        destruct S as [S|(_ & Q1 & Q2 & Q3)].
        + assert (Z0 : qsum ds = 0). { clear - S0. induction S0 as [|d l -> S0 IH]; [apply qsum_nil|]. rewrite qsum_cons, IH. ring. } rewrite Z0 in S. discriminate.
        + destruct (OK i _ qs mx q CI J C GR Hx) as [K|[K|K]]; try contradiction. qlra.
      - apply Exists_exists in Z. destruct Z as (p & IP & NP'). exists p. split; [assumption|apply Qcnot_lt_le; assumption]. }
    destruct TOP as (p & IP & LP). rewrite <- PK in IP, IM. apply in_map_iff in IP. destruct IP as (c' & Pc' & Ic'). apply in_map_iff in IM. destruct IM as (c & Pc & Ic).
    exists q, c, c'. split; [reflexivity|]. rewrite E. split; [apply in_map; assumption|]. split; [apply in_map; assumption|]. rewrite Pc, Pc'. split; [apply LM; assumption|assumption].
Qed.
Print Assumptions C133_rows_among.

(** ** with C129, C130 and C132: what explainers need of such a neighbourhood *)
Theorem C133_fdt_prepared : forall show show_cell inst k s division n kw s' X y cat ord a dec,
  sized show show_cell inst k s division n kw s' X y cat -> n_decoded (view s') = Ok dec ->
  a_nb a = view s' -> a_instance a = [dec] -> (forall p l, Permutation (ord p l) l) -> (forall th, k_threshold (a_kw a) = Some th -> (0 < th)%R) ->
  (forall i c, nth_error (tb_cols X) i = Some c -> In c (a_num a) -> two_values X i) ->
  exists vars m, n_vars (view s') = Ok vars /\ prepared ord a vars m (tb_rows X) y.
Proof.
  intros show show_cell inst k s division n kw s' X y cat ord a dec FZ HD NB HI HO TH NUM.
  destruct (sized_ready _ _ _ _ _ _ _ _ _ _ _ _ dec FZ HD) as (vars & m & V1 & V3 & V4 & V5 & V6 & V7 & V8 & V9 & RX & NY & Vy).
  destruct (sized_vars _ _ _ _ _ _ _ _ _ _ _ _ vars FZ V1) as [num VO].
  assert (CD : List.concat (a_instance a) = dec) by (rewrite HI; cbn; apply app_nil_r). exists vars, m. split; [assumption|]. unfold prepared. rewrite NB, CD.
  split; [assumption|]. split; [assumption|]. split; [exists dec; assumption|]. split; [assumption|]. split; [assumption|]. split; [exact HO|]. split; [assumption|]. split; [assumption|]. split.
  { intros v Iv In'. apply In_nth_error in Iv. destruct Iv as [i Hi]. apply (C133_two_sets show show_cell inst k s division n kw s' X y cat vars i v FZ V1 Hi). apply (NUM i (fv_name v)); [|assumption].
    rewrite <- (proj1 VO). apply map_nth_error. assumption. }
  split; [apply FZ|]. split; [assumption|]. split; [assumption|]. split; [assumption|]. split; [assumption|]. split; assumption.
Qed.
Print Assumptions C133_fdt_prepared.
Theorem C133_fbdt_prepared : forall show show_cell inst k s division n kw s' X y cat psort a dec,
  sized show show_cell inst k s division n kw s' X y cat -> n_decoded (view s') = Ok dec ->
  ba_nb a = view s' -> ba_instance a = [dec] -> (forall l, Permutation (psort l) l) -> (forall th, k_threshold (ba_kw a) = Some th -> (0 < th)%R) ->
  exists vars m, n_vars (view s') = Ok vars /\ bprepared psort a vars m (tb_rows X) y.
Proof.
  intros show show_cell inst k s division n kw s' X y cat psort a dec FZ HD NB HI HO TH.
  destruct (sized_ready _ _ _ _ _ _ _ _ _ _ _ _ dec FZ HD) as (vars & m & V1 & V3 & V4 & V5 & V6 & V7 & V8 & V9 & RX & NY & Vy).
  assert (CD : List.concat (ba_instance a) = dec) by (rewrite HI; cbn; apply app_nil_r). exists vars, m. split; [assumption|]. unfold bprepared. rewrite NB, CD.
  repeat (split; [first [assumption|apply FZ]|]). assumption.
Qed.
Print Assumptions C133_fbdt_prepared.
Theorem C133_fdt_succeeds : forall show show_cell inst k s division n kw s' X y cat ord same parse mixed e a dec vars b,
  sized show show_cell inst k s division n kw s' X y cat -> n_decoded (view s') = Ok dec -> n_vars (view s') = Ok vars ->
  a_nb a = view s' -> a_instance a = [dec] -> (forall p l, Permutation (ord p l) l) -> (forall th, k_threshold (a_kw a) = Some th -> (0 < th)%R) ->
  (forall i c, nth_error (tb_cols X) i = Some c -> In c (a_num a) -> two_values X i) ->
  a_counterfactual a <> "d_counterfactual" -> valid_arguments (a_instance a) (a_factual a) (a_counterfactual a) (a_kw a) -> accepted (a_kw a) (a_factual a) -> scorable y ->
  let cfg := fdt_config vars (a_kw a) in
  ~ limit_met cfg (tb_rows X) y [] -> (b < List.length vars)%nat -> (f_threshold cfg <= info_gain vars (tb_rows X) y [] b)%R ->
  (forall row, In row (tb_rows X) -> row_among vars row) ->
  (a_factual a <> "mr_factual" -> row_among vars dec /\
     forall t, fit cfg ord fresh_root (tb_rows X) y = Ok t -> (List.length (leaves t) * List.length (zunique y) < 500)%nat) ->
  exists e', fdt_fit ord same parse mixed e a = (e', None).
Proof.
  intros show show_cell inst k s division n kw s' X y cat ord same parse mixed e a dec vars b FZ HD GV NB HI HO TH NUM NDC VA AC SC cfg NL Lb G RA IA.
  destruct (C133_fdt_prepared show show_cell inst k s division n kw s' X y cat ord a dec FZ HD NB HI HO TH NUM) as (vars' & m & GV' & P). rewrite GV in GV'. injection GV' as <-.
  assert (CD : List.concat (a_instance a) = dec) by (rewrite HI; cbn; apply app_nil_r).
  apply (C129_succeeds ord same parse mixed e a vars m (tb_rows X) y (qc 1 2) b P NDC VA AC SC NL Lb G).
  - intros row I. exists (qc 1 2). split; [reflexivity|]. apply (C133_half show show_cell inst k s division n kw s' X y cat vars row FZ GV (RA row I)).
  - intro N. destruct (IA N) as [AD LT]. rewrite CD. split; [apply (C133_half show show_cell inst k s division n kw s' X y cat vars dec FZ GV AD)|].
    intros t FT. specialize (LT t FT). rewrite <- qn_mult. assert (Q : qz 1000 * qc 1 2 = qn 500) by qex. rewrite Q. apply qn_lt_iff. assumption.
Qed.
Print Assumptions C133_fdt_succeeds.
Theorem C133_fbdt_succeeds : forall show show_cell inst k s division n kw s' X y cat psort e a dec vars b g1 g2,
  sized show show_cell inst k s division n kw s' X y cat -> n_decoded (view s') = Ok dec -> n_vars (view s') = Ok vars ->
  ba_nb a = view s' -> ba_instance a = [dec] -> (forall l, Permutation (psort l) l) -> sorts psort -> (forall th, k_threshold (ba_kw a) = Some th -> (0 < th)%R) ->
  valid_arguments (ba_instance a) (ba_factual a) (ba_counterfactual a) (ba_kw a) -> accepted (ba_kw a) (ba_factual a) -> binary_labels y ->
  let cfg := fdt_config vars (ba_kw a) in
  ~ exhausted cfg y (map (fun _ => 1) y) [] -> candidate cfg (tb_rows X) y [] b g1 g2 -> (f_threshold cfg <= root_gain vars (tb_rows X) y b g1 g2)%R ->
  (forall row, In row (tb_rows X) -> row_among vars row) ->
  (ba_factual a <> "mr_factual" -> row_among vars dec /\ (product (map (fun v => List.length (fv_sets v)) vars) < 250)%nat) ->
  exists e', fbdt_fit psort e a = (e', None).
Proof.
  intros show show_cell inst k s division n kw s' X y cat psort e a dec vars b g1 g2 FZ HD GV NB HI HO SO TH VA AC BL cfg NX CDT G RA IA.
  destruct (C133_fbdt_prepared show show_cell inst k s division n kw s' X y cat psort a dec FZ HD NB HI HO TH) as (vars' & m & GV' & P). rewrite GV in GV'. injection GV' as <-.
  assert (CD : List.concat (ba_instance a) = dec) by (rewrite HI; cbn; apply app_nil_r).
  apply (C130_succeeds psort e a vars m (tb_rows X) y (qc 1 2) b g1 g2 P SO VA AC BL NX CDT G).
  - intros row I. exists (qc 1 2). split; [reflexivity|]. apply (C133_half show show_cell inst k s division n kw s' X y cat vars row FZ GV (RA row I)).
  - intro N. destruct (IA N) as [AD LT]. rewrite CD. split; [apply (C133_half show show_cell inst k s division n kw s' X y cat vars dec FZ GV AD)|].
    change (qz 2) with (qn 2). rewrite <- qn_mult. assert (Q : qz 1000 * qc 1 2 = qn 500) by qex. rewrite Q. apply qn_lt_iff. lia.
Qed.
Print Assumptions C133_fbdt_succeeds.

(** the instance membership has one entry per variable and set, in order *)
Theorem C133_follows : forall show show_cell inst k s division n kw s' X y cat vars m,
  sized show show_cell inst k s division n kw s' X y cat -> n_vars (view s') = Ok vars -> n_instance (view s') = Ok m -> follows vars m.
Proof.
  intros show show_cell inst k s division n kw s' X y cat vars m FZ GV GM. assert (FZ' := FZ). destruct FZ' as (_ & _ & _ & _ & H & _).
  destruct (fuzzify_ok pandas_cut show show_cell inst k s division kw H) as (X' & vars' & xm & dec & im & _ & _ & _ & HD & MI & SD & VS & _ & IM).
  assert (E : vars' = vars). { unfold view, get_vars in GV. cbn [n_vars] in GV. rewrite VS in GV. cbn [ret_opt bind] in GV. rewrite all_some_map in GV. injection GV as <-. reflexivity. } subst vars'.
  unfold view, get_instance_membership in GM. cbn [n_instance] in GM. rewrite IM in GM. cbn [ret_opt] in GM. injection GM as <-.
  destruct (sized_ready show show_cell inst k s division n kw s' X y cat dec FZ) as (vars2 & m2 & V1 & _ & _ & V5 & _).
  { unfold view. cbn [n_decoded]. destruct SD as (_ & _ & _ & D4 & _). rewrite D4, HD. reflexivity. }
  rewrite GV in V1. injection V1 as <-. destruct (@dataset_membership_exact _ _ _ V5 MI) as [-> _].
  unfold follows, single, exact_mem, exact_sets. rewrite !map_map. cbn [fst snd]. rewrite <- (map_enumerate (fun v => (fv_name v, map fs_name (fv_sets v)))).
  apply map_ext. intros [i v]. cbn [fst snd]. f_equal. rewrite !map_map. cbn [fst snd]. apply (map_enumerate fs_name).
Qed.
Print Assumptions C133_follows.
(** float() reads what str() printed: every distance is defined, as in C132 *)
Theorem C133_measurable : forall show show_cell inst k s division n kw s' X y cat vars dec co di mad parse,
  sized show show_cell inst k s division n kw s' X y cat -> n_vars (view s') = Ok vars -> n_decoded (view s') = Ok dec ->
  (forall q, parse (show q) = Ok q) ->
  (forall i c, nth_error (tb_cols X) i = Some c -> In i co -> ~ In c cat /\ exists w, dget i mad = Some w /\ w <> 0) ->
  (forall i, (i < List.length (tb_cols X))%nat -> ~ In i co -> di <> []) ->
  measurable vars dec co di mad parse.
Proof.
  intros show show_cell inst k s division n kw s' X y cat vars dec co di mad parse FZ GV HD PS HC HN.
  destruct (sized_vars _ _ _ _ _ _ _ _ _ _ _ _ vars FZ GV) as [num VO]. assert (W := sized_wide _ _ _ _ _ _ _ _ _ _ _ _ FZ).
  destruct (sized_ready _ _ _ _ _ _ _ _ _ _ _ _ dec FZ HD) as (vars' & m & V1 & _ & _ & _ & NE & RD & _). rewrite GV in V1. injection V1 as <-.
  split.
  - intros i v Hv I. assert (Hc : nth_error (tb_cols X) i = Some (fv_name v)) by (rewrite <- (proj1 VO); apply map_nth_error; assumption). destruct (HC i _ Hc I) as [NC M].
    destruct (sized_num _ _ _ _ _ _ _ _ _ _ _ _ vars i v FZ GV Hv NC) as (qs & pts & sets & _ & E & ES & _).
    split; [|split; [assumption|]].
    + assert (N := NE v (nth_error_In _ _ Hv)). rewrite E in N. destruct sets as [|c0 sets]; [exfalso; apply N; reflexivity|]. destruct (RD dec (or_introl eq_refl) i v (FC c0) Hv) as (x & d & Hx & Mx); [rewrite E; left; reflexivity|].
      destruct x as [q|t]; [eauto|]. exfalso. cbn in Mx. destruct (valid_points _ _ _); discriminate.
    + intros st Is. rewrite E in Is. apply in_map_iff in Is. destruct Is as (c & <- & Ic). cbn [fs_name].
      assert (NM : In (c_name c) (map show pts)).
      { destruct pts as [|f [|g rest]]; [cbn in ES; first [discriminate ES|injection ES as <-; destruct Ic]|cbn in ES; injection ES as <-; destruct Ic as [<-|[]]; left; reflexivity|]. set (d := zip (map show (f :: g :: rest)) (f :: g :: rest)) in *.
        assert (LD : (2 <= List.length d)%nat) by (unfold d; cbn; lia). destruct (@C03_sets "point_set" d LD) as (sets' & E' & LS & N). rewrite ES in E'. injection E' as <-.
        apply In_nth_error in Ic. destruct Ic as [j Hj]. assert (Lj : (j < List.length d)%nat) by (rewrite <- LS; apply nth_error_Some; congruence). destruct (nth_error d j) as [[nm p]|] eqn:Ed; [|apply nth_error_None in Ed; lia].
        destruct (N j nm p Ed) as (c' & Hc' & Nc & _). rewrite Hj in Hc'. injection Hc' as <-. rewrite Nc. apply nth_zip in Ed. destruct Ed as [Ed _]. exact (nth_error_In _ _ Ed). }
      apply in_map_iff in NM. destruct NM as (q & <- & _). exists q. apply PS.
  - intros i L NI. apply (HN i); [|assumption]. rewrite <- (proj1 VO), map_length. assumption.
Qed.
Print Assumptions C133_measurable.
Theorem C133_d_succeeds : forall show show_cell inst k s division n kw s' X y cat ord same parse mixed e a dec vars b co di mad,
  sized show show_cell inst k s division n kw s' X y cat -> n_decoded (view s') = Ok dec -> n_vars (view s') = Ok vars ->
  a_nb a = view s' -> a_instance a = [dec] -> (forall p l, Permutation (ord p l) l) -> (forall th, k_threshold (a_kw a) = Some th -> (0 < th)%R) ->
  (forall i c, nth_error (tb_cols X) i = Some c -> In c (a_num a) -> two_values X i) ->
  a_counterfactual a = "d_counterfactual" -> k_cont (a_kw a) = Some co -> k_disc (a_kw a) = Some di -> k_mad (a_kw a) = Some mad ->
  (k_dist (a_kw a) = None \/ k_dist (a_kw a) = Some "moth") -> (forall q, parse (show q) = Ok q) ->
  (forall i c, nth_error (tb_cols X) i = Some c -> In i co -> ~ In c cat /\ exists w, dget i mad = Some w /\ w <> 0) ->
  (forall i, (i < List.length (tb_cols X))%nat -> ~ In i co -> di <> []) ->
  valid_arguments (a_instance a) (a_factual a) (a_counterfactual a) (a_kw a) -> accepted_d (a_kw a) (a_factual a) -> scorable y ->
  let cfg := fdt_config vars (a_kw a) in
  ~ limit_met cfg (tb_rows X) y [] -> (b < List.length vars)%nat -> (f_threshold cfg <= info_gain vars (tb_rows X) y [] b)%R ->
  (forall row, In row (tb_rows X) -> row_among vars row) ->
  (a_factual a <> "mr_factual" -> row_among vars dec /\
     forall t, fit cfg ord fresh_root (tb_rows X) y = Ok t -> (List.length (leaves t) * List.length (zunique y) < 500)%nat) ->
  exists e', fdt_fit ord same parse mixed e a = (e', None).
Proof.
  intros show show_cell inst k s division n kw s' X y cat ord same parse mixed e a dec vars b co di mad FZ HD GV NB HI HO TH NUM CD Kc Kd Km KD PS HC HN VA AC SC cfg NL Lb G RA IA.
  destruct (C133_fdt_prepared show show_cell inst k s division n kw s' X y cat ord a dec FZ HD NB HI HO TH NUM) as (vars' & m & GV' & P). rewrite GV in GV'. injection GV' as <-.
  assert (CE : List.concat (a_instance a) = dec) by (rewrite HI; cbn; apply app_nil_r).
  assert (GM : n_instance (view s') = Ok m) by (rewrite <- NB; apply P).
  apply (C132_succeeds ord same parse mixed e a vars m (tb_rows X) y dec co di mad (qc 1 2) b P); try assumption.
  - exact (C133_follows _ _ _ _ _ _ _ _ _ _ _ _ _ _ FZ GV GM).
  - rewrite NB. assumption.
  - exact (C133_measurable _ _ _ _ _ _ _ _ _ _ _ _ _ _ _ _ _ _ FZ GV HD PS HC HN).
  - intros row I. exists (qc 1 2). split; [reflexivity|]. apply (C133_half show show_cell inst k s division n kw s' X y cat vars row FZ GV (RA row I)).
  - intro N. destruct (IA N) as [AD LT]. rewrite CE. split; [apply (C133_half show show_cell inst k s division n kw s' X y cat vars dec FZ GV AD)|].
    intros t FT. specialize (LT t FT). rewrite <- qn_mult. assert (Q : qz 1000 * qc 1 2 = qn 500) by qex. rewrite Q. apply qn_lt_iff. assumption.
Qed.
Print Assumptions C133_d_succeeds.

(** *** the table of Properties_Pipeline divided into two sets by either method: the explainers succeed on it *)
Definition pz_s (k : kind) := history pandas_cut show_num show_val [CNum 1; CStr "a"] k [Fit ex2_outcome].
Definition pz_kw : zargs := mkZ (Some 2%Z) false (Some ["x"]) (Some ["c"]) None None.
Lemma pz_spaced division : columns_spaced division 2 ex2_table ["c"].
Proof.
  intros i c qs Hi NC HC. right. destruct i as [|[|i]]; [|injection Hi as <-; exfalso; apply NC; left; reflexivity|destruct i; discriminate].
  assert (E : qs = [1; qz 3]). { apply map_cnum. cbn in HC. injection HC as <-. reflexivity. } subst qs. split; intros _.
  - exists 1, (qz 3). split; [split; [left; reflexivity|intros v [<-|[<-|[]]]; discriminate]|]. split; [split; [right; left; reflexivity|intros v [<-|[<-|[]]]; discriminate]|reflexivity].
  - exists [1; qz 3]. split; [|repeat constructor]. change (Z.to_nat (2 - 1)) with 1%nat. replace [1; qz 3] with (qcut_bins [1; qz 3] 1) at 2 by qex. apply quantiles_exist; [lia|discriminate].
Qed.
Lemma pz_sized division k : by_size division -> exists s' vars, sized show_num show_val [CNum 1; CStr "a"] k (pz_s k) division 2 pz_kw s' ex2_table [0; 1]%Z ["c"] /\
  n_decoded (view s') = Ok [CNum 1; CStr "a"] /\ n_vars (view s') = Ok vars.
Proof.
  intro D. assert (ND : NoDup ["x"; "c"]) by (repeat constructor; cbn; intuition discriminate). assert (N : (2 <= 2)%Z) by lia.
  destruct (C127_succeeds show_num show_val [CNum 1; CStr "a"] k [Fit ex2_outcome] division 2 pz_kw ex2_table [0; 1]%Z [CNum 1; CStr "a"] ["x"] ["c"]) as [s' H]; try reflexivity; try assumption.
  - apply pz_spaced.
  - destruct k; split; reflexivity.
  - destruct k; reflexivity.
  - discriminate.
  - intro c. cbn. tauto.
  - intros row I. split; [apply pl_fits; assumption|]. intros i c Hi [<-|[]]. destruct I as [<-|[<-|[]]]; (destruct i as [|[|i]]; [eexists; reflexivity|discriminate|destruct i; discriminate]).
  - apply pl_fits. left. reflexivity.
  - intros _ _. apply pl_fits. left. reflexivity.
  - change (fuzzify_of pandas_cut show_num show_val [CNum 1; CStr "a"] k (pz_s k) division pz_kw = (s', None)) in H.
    assert (FW : fitted_with (pz_s k) ex2_table [0; 1]%Z) by (destruct k; split; reflexivity).
    destruct (C127_ready_for_explainer show_num show_val [CNum 1; CStr "a"] k (pz_s k) division 2 pz_kw s' ex2_table ["c"] D eq_refl N (pz_spaced division) eq_refl H (proj1 FW) ND (le_n 2) (fun row I => proj1 (pl_fits row I)) show_num_inj show_val_inj) as (vars & dec & m & V1 & V2 & _).
    exists s', vars. split; [|split; [|exact V1]].
    + split; [exact D|]. split; [reflexivity|]. split; [exact N|]. split; [apply pz_spaced|]. split; [exact H|]. split; [exact FW|]. split; [reflexivity|]. split; [exact ND|]. split; [exact (le_n 2)|]. split; [reflexivity|]. split; [exact pl_fits|]. split; [exact show_num_inj|exact show_val_inj].
    + rewrite V2. destruct (fuzzify_ok pandas_cut show_num show_val [CNum 1; CStr "a"] k (pz_s k) division pz_kw H) as (_ & _ & _ & dec' & _ & _ & _ & _ & HD & _ & (_ & _ & _ & D4 & _) & _).
      unfold view in V2. cbn [n_decoded] in V2. rewrite D4, HD in V2. cbn in V2. assert (HD' : nb_decoded (pz_s k) = Some [CNum 1; CStr "a"]) by (destruct k; reflexivity). congruence.
Qed.
Lemma pz_varied : ~ nearly_constant [1; qz 3].
Proof. intro K. apply (small_std_spec [1; qz 3] (le_n 2)) in K. vm_compute in K. discriminate. Qed.
Lemma pz_vars division k s' vars : sized show_num show_val [CNum 1; CStr "a"] k (pz_s k) division 2 pz_kw s' ex2_table [0; 1]%Z ["c"] -> n_vars (view s') = Ok vars ->
  exists v, vars = [pl_x; v] /\ List.length (fv_sets v) = 2%nat.
Proof.
  intros FZ GV. destruct (sized_vars _ _ _ _ _ _ _ _ _ _ _ _ vars FZ GV) as [num VO]. assert (VN := proj1 VO). destruct vars as [|v0 [|v1 [|? ?]]]; try discriminate VN. cbn in VN. injection VN as N0 N1.
  destruct (proj2 VO 0%nat v0 _ eq_refl eq_refl) as [_ A0]. destruct (proj2 VO 1%nat v1 _ eq_refl eq_refl) as [A1 _].
  destruct A0 as (_ & qs & pts & sets & CE & E & ES & _ & B); [rewrite N0; intros [Q|[]]; discriminate|]. destruct A1 as (values & NV & IV & E1); [rewrite N1; left; reflexivity|].
  exists v1. split.
  - f_equal. assert (qs = [1; qz 3]). { destruct qs as [|q1 [|q2 [|? ?]]]; try discriminate CE. cbn in CE. injection CE as <- <-. reflexivity. } subst qs.
    assert (PT : pts = [1; qz 3]).
    { destruct (B pz_varied) as [[_ W]|[_ W]].
      - assert (Q : width_points [1; qz 3] 2 = Ok [1; qz 3]) by qex. congruence.
      - assert (Q : freq_points [1; qz 3] 2 = Ok [1; qz 3]) by qex. congruence. }
    subst pts. rewrite pl_sets in ES. injection ES as <-. destruct v0 as [n0 ss]. cbn in N0, E |- *. subst. reflexivity.
  - rewrite E1, map_length. assert (P : Permutation values [CStr "a"; CStr "b"]).
    { apply NoDup_Permutation; [assumption|repeat constructor; cbn; intuition discriminate|]. intro x. rewrite IV. reflexivity. }
    apply Permutation_length in P. exact P.
Qed.
Lemma pz_among division v s' k : sized show_num show_val [CNum 1; CStr "a"] k (pz_s k) division 2 pz_kw s' ex2_table [0; 1]%Z ["c"] -> n_vars (view s') = Ok [pl_x; v] ->
  forall row, In row (tb_rows ex2_table) -> row_among [pl_x; v] row.
Proof.
  intros FZ GV row I. apply (C133_rows_among _ _ _ _ _ _ _ _ _ _ _ _ _ row FZ GV I). intros i c qs mx q Hc J HC GR HX. right. left.
  destruct i as [|[|i]]; [|injection Hc as <-; exfalso; apply J; left; reflexivity|destruct i; discriminate].
  assert (qs = [1; qz 3]). { apply map_cnum. cbn in HC. injection HC as <-. reflexivity. } subst qs.
  assert (mx = qz 3) by (apply (greatest_fun [1; qz 3]); [assumption|split; [right; left; reflexivity|intros z [<-|[<-|[]]]; discriminate]]). subst mx. exists 3000%Z. qex.
Qed.
Example C133_instance : forall division, by_size division -> forall k, exists s' vars,
  sized show_num show_val [CNum 1; CStr "a"] k (pz_s k) division 2 pz_kw s' ex2_table [0; 1]%Z ["c"] /\ n_vars (view s') = Ok vars /\
  (forall row, In row (tb_rows ex2_table) -> row_among vars row) /\
  (exists e', fdt_fit same_order (fun _ _ _ => true) (fun _ => Err ValueError) (fun _ _ _ _ _ => Ok 0) new_explainer (pl_call s') = (e', None)) /\
  (exists e', fbdt_fit share_sort new_explainer (pl_bcall s') = (e', None)).
Proof.
  intros division D k. destruct (pz_sized division k D) as (s' & vars & FZ & HD & GV). destruct (pz_vars division k s' vars FZ GV) as (v & -> & LV). exists s', [pl_x; v]. assert (RA := pz_among division v s' k FZ GV).
  split; [exact FZ|]. split; [exact GV|]. split; [exact RA|].
  assert (VA : valid_arguments [[CNum 1; CStr "a"]] "m_factual" "i_counterfactual" no_kwargs) by (split; [exists [CNum 1; CStr "a"], (CNum 1); split; left; reflexivity|]; split; [left; reflexivity|]; split; [discriminate|left; reflexivity]).
  assert (AC : accepted no_kwargs "m_factual") by (repeat split; reflexivity).
  assert (TH : forall th, k_threshold no_kwargs = Some th -> (0 < th)%R) by (intros th E; discriminate).
  split.
  - apply (C133_fdt_succeeds show_num show_val [CNum 1; CStr "a"] k (pz_s k) division 2 pz_kw s' ex2_table [0; 1]%Z ["c"] same_order (fun _ _ _ => true) (fun _ => Err ValueError) (fun _ _ _ _ _ => Ok 0) new_explainer (pl_call s') [CNum 1; CStr "a"] [pl_x; v] 0); try assumption; try reflexivity.
    + intros i c Hi [<-|[]]. destruct i as [|[|i]]; [|discriminate|destruct i; discriminate]. exists [CNum 1; CStr "a"], [CNum (qz 3); CStr "b"]. split; [left; reflexivity|]. split; [right; left; reflexivity|discriminate].
    + discriminate.
    + intros _. right. left. reflexivity.
    + intros [Q|[Q|Q]].
      * assert (Z : 0%Z = 1%Z) by (apply Q; [left; reflexivity|right; left; reflexivity]). discriminate.
      * vm_compute in Q. discriminate.
      * vm_compute in Q. apply Q. reflexivity.
    + cbn. lia.
    + unfold info_gain. change (acts [pl_x; v] (tb_rows ex2_table) []) with [1; 1]. assert (E0 : acts [pl_x; v] (tb_rows ex2_table) ([] ++ [(0%nat, 0%nat)]) = [1; 0]) by qex. assert (E1 : acts [pl_x; v] (tb_rows ex2_table) ([] ++ [(0%nat, 1%nat)]) = [0; 1]) by qex.
      rewrite entropy_two by discriminate. change (match nth_error [pl_x; v] 0 with Some v0 => List.length (fv_sets v0) | None => 0%nat end) with 2%nat. cbn [seq map rsum fold_right]. rewrite E0, E1, !entropy_pure by (auto; qlra).
      cbn. unfold Rdiv. rewrite !Rmult_0_r, !Rplus_0_l, Rmult_0_l. lra.
    + intros _. split; [apply RA; left; reflexivity|]. intros t FT. cbn [a_kw pl_call] in FT.
      destruct (sized_ready _ _ _ _ _ _ _ _ _ _ _ _ _ FZ HD) as (vars' & m & V1 & _ & _ & V5 & V6 & _). rewrite GV in V1. injection V1 as <-.
      assert (T : trained (fdt_config [pl_x; v] no_kwargs) same_order (tb_rows ex2_table) [0; 1]%Z t) by (split; [intros; apply Permutation_refl|]; split; [assumption|]; split; [left; cbn; lra|assumption]).
      destruct (C129_leaf_count _ _ _ _ _ 2 T ltac:(lia)) as [LC _]; [intros w [<-|[<-|[]]]; [cbn; lia|rewrite LV; lia]|]. cbn in LC. change (List.length (zunique [0; 1]%Z)) with 2%nat. lia.
  - apply (C133_fbdt_succeeds show_num show_val [CNum 1; CStr "a"] k (pz_s k) division 2 pz_kw s' ex2_table [0; 1]%Z ["c"] share_sort new_explainer (pl_bcall s') [CNum 1; CStr "a"] [pl_x; v] 0 [0]%nat [1]%nat); try assumption; try reflexivity.
    + exact share_sort_perm.
    + exact share_sort_sorts.
    + split; [cbn; lia|]. intros _. right. left. reflexivity.
    + intros [K|[K|K]].
      * assert (Q : 0%Z = 1%Z) by (apply (K 0%nat 1%nat); reflexivity). discriminate.
      * vm_compute in K. discriminate.
      * vm_compute in K. apply K. reflexivity.
    + exists pl_x. split; [reflexivity|]. split; [discriminate|]. split; [discriminate|]. split; [intros _; reflexivity|]. intro N. exfalso. apply N. do 2 eexists. reflexivity.
    + unfold root_gain. assert (E1 : map (fun row => qmin 1 (side_degree [pl_x; v] row (0%nat, [0%nat]))) (tb_rows ex2_table) = [1; 0]) by qex.
      assert (E2 : map (fun row => qmin 1 (side_degree [pl_x; v] row (0%nat, [1%nat]))) (tb_rows ex2_table) = [0; 1]) by qex. rewrite E1, E2. change (map (fun _ : Z => 1) [0; 1]%Z) with [1; 1].
      unfold bgain. rewrite entropy_two by discriminate. rewrite !entropy_pure by (auto; qlra). cbn. unfold Rdiv. rewrite !Rmult_0_r, !Rplus_0_l, Rmult_0_l. lra.
    + intros _. split; [apply RA; left; reflexivity|]. cbn [map]. rewrite LV. cbn. lia.
Qed.
Example C133_d_instance : forall division, by_size division -> forall k, exists s',
  sized show_num show_val [CNum 1; CStr "a"] k (pz_s k) division 2 pz_kw s' ex2_table [0; 1]%Z ["c"] /\
  exists e', fdt_fit same_order (fun _ _ _ => true) read_num (fun _ _ _ _ _ => Err AttributeError) new_explainer (pl_dcall s') = (e', None).
Proof.
  intros division D k. destruct (pz_sized division k D) as (s' & vars & FZ & HD & GV). destruct (pz_vars division k s' vars FZ GV) as (v & -> & LV). exists s'. assert (RA := pz_among division v s' k FZ GV).
  split; [exact FZ|].
  assert (TH : forall th, k_threshold pl_dkw = Some th -> (0 < th)%R) by (intros th E; discriminate).
  apply (C133_d_succeeds show_num show_val [CNum 1; CStr "a"] k (pz_s k) division 2 pz_kw s' ex2_table [0; 1]%Z ["c"] same_order (fun _ _ _ => true) read_num _ new_explainer (pl_dcall s') [CNum 1; CStr "a"] [pl_x; v] 0 [0%nat] [1%nat] [(0%nat, qz 2)]); try assumption; try reflexivity.
  - intros i c Hi [<-|[]]. destruct i as [|[|i]]; [|discriminate|destruct i; discriminate]. exists [CNum 1; CStr "a"], [CNum (qz 3); CStr "b"]. split; [left; reflexivity|]. split; [right; left; reflexivity|discriminate].
  - left. reflexivity.
  - exact read_show.
  - intros i c Hi [<-|[]]. injection Hi as <-. split; [intros [Q|[]]; discriminate|]. exists (qz 2). split; [reflexivity|discriminate].
  - discriminate.
  - split; [exists [CNum 1; CStr "a"], (CNum 1); split; left; reflexivity|]. split; [left; reflexivity|]. split; [discriminate|right; right; left; reflexivity].
  - split; [reflexivity|]. intros _. split; reflexivity.
  - intros _. right. left. reflexivity.
  - intros [Q|[Q|Q]].
    + assert (Z : 0%Z = 1%Z) by (apply Q; [left; reflexivity|right; left; reflexivity]). discriminate.
    + vm_compute in Q. discriminate.
    + vm_compute in Q. apply Q. reflexivity.
  - cbn. lia.
  - unfold info_gain. change (acts [pl_x; v] (tb_rows ex2_table) []) with [1; 1]. assert (E0 : acts [pl_x; v] (tb_rows ex2_table) ([] ++ [(0%nat, 0%nat)]) = [1; 0]) by qex. assert (E1 : acts [pl_x; v] (tb_rows ex2_table) ([] ++ [(0%nat, 1%nat)]) = [0; 1]) by qex.
    rewrite entropy_two by discriminate. change (match nth_error [pl_x; v] 0 with Some v0 => List.length (fv_sets v0) | None => 0%nat end) with 2%nat. cbn [seq map rsum fold_right]. rewrite E0, E1, !entropy_pure by (auto; qlra).
    cbn. unfold Rdiv. rewrite !Rmult_0_r, !Rplus_0_l, Rmult_0_l. lra.
  - intros _. split; [apply RA; left; reflexivity|]. intros t FT. cbn [a_kw pl_dcall] in FT.
    destruct (sized_ready _ _ _ _ _ _ _ _ _ _ _ _ _ FZ HD) as (vars' & m & V1 & _ & _ & V5 & V6 & _). rewrite GV in V1. injection V1 as <-.
    assert (T : trained (fdt_config [pl_x; v] pl_dkw) same_order (tb_rows ex2_table) [0; 1]%Z t) by (split; [intros; apply Permutation_refl|]; split; [assumption|]; split; [left; cbn; lra|assumption]).
    destruct (C129_leaf_count _ _ _ _ _ 2 T ltac:(lia)) as [LC _]; [intros w [<-|[<-|[]]]; [cbn; lia|rewrite LV; lia]|]. cbn in LC. change (List.length (zunique [0; 1]%Z)) with 2%nat. lia.
Qed.
