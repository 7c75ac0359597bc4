(** * Proofs for C131 *)
From Verif Require Import Prelude M_Fuzzy P_FuzzySet P_FuzzyVar M_Discretize S_Discretize P_Discretize P_Discretize2 M_Rule S_Rule M_FDT S_FDT P_FDT M_Counterfactual S_Counterfactual M_Explainer
  M_Neighborhood S_Neighborhood P_Neighborhood P_Neighborhood2 P_Neighborhood3 Properties_Discretize P_Cut2 S_Success S_Pipeline.
From Coq Require Import Reals Lra.
Local Notation eqb := Prelude.eqb.
Open Scope Qc_scope.

(** ** at least two points *)
Scheme divided_ind2 := Minimality for divided Sort Prop with divided_side_ind2 := Minimality for divided_side Sort Prop.
Lemma two_points max_depth th : (forall depth mn data pts, divided max_depth th depth mn data pts -> In mn (map fst data) -> (exists x, In x (map fst data) /\ mn < x) ->
    exists a b, In a pts /\ In b pts /\ a < b) .
Proof.
  apply (divided_ind2 max_depth th
    (fun depth mn data pts => In mn (map fst data) -> (exists x, In x (map fst data) /\ mn < x) -> exists a b, In a pts /\ In b pts /\ a < b)
    (fun depth mn data pts => (2 <= List.length data)%nat -> In mn (map fst data) -> (exists x, In x (map fst data) /\ mn < x) -> exists a b, In a pts /\ In b pts /\ a < b)).
  - intros depth mn mx data [LG LM] _ I (x & Ix & Lx). exists mn, mx. split; [left; reflexivity|]. split; [right; left; reflexivity|]. eapply Qclt_le_trans; [exact Lx|apply LM; assumption].
  - intros depth mn mx data p lp rp pts LG MC [[Ip [L1 L2]] _] RQ _ IHl _ _ SS PT I E.
    apply in_map_iff in I. destruct I as ([m cm] & E1 & Im). apply in_map_iff in Ip. destruct Ip as ([p' cp] & E2 & Ip). cbn [fst] in E1, E2. subst m p'.
    assert (Jm : In (mn, cm) (filter (fun r => qleb (fst r) p) data)) by (apply filter_In; split; [assumption|apply qleb_le; cbn [fst]; apply Qclt_le_weak; assumption]).
    assert (Jp : In (p, cp) (filter (fun r => qleb (fst r) p) data)) by (apply filter_In; split; [assumption|apply qleb_le; apply Qcle_refl]).
    destruct IHl as (a & b & Ia & Ib & Lab).
    + destruct (filter (fun r => qleb (fst r) p) data) as [|r1 [|r2 l]]; [destruct Jm| |cbn; lia]. destruct Jm as [->|[]]. destruct Jp as [Q|[]]. injection Q as -> _. exfalso. qlra.
    + apply in_map_iff. exists (mn, cm). auto.
    + exists p. split; [apply in_map_iff; exists (p, cp); auto|assumption].
    + exists a, b. split; [apply PT; auto|]. split; [apply PT; auto|assumption].
  - intros depth mn row L. cbn in L. lia.
  - intros depth mn data pts L _ IH _ I E. auto.
Qed.
Lemma two_points_len max_depth th data pts : (exists x y, In x (map fst data) /\ In y (map fst data) /\ x <> y) ->
  entropy_points max_depth th data = Ok pts -> (2 <= List.length pts)%nat.
Proof.
  intros D E. destruct (C76_cuts_are_gain_optimal max_depth th data D) as (mn & pts' & [I M] & E' & DV). rewrite E in E'. injection E' as <-.
  destruct (two_points _ _ _ _ _ _ DV I) as (a & b & Ia & Ib & L).
  - destruct D as (x & y & Ix & Iy & N). destruct (Qc_eq_dec x mn) as [->|Q].
    + exists y. split; [assumption|]. specialize (M y Iy). apply Qcle_lt_or_eq in M. destruct M as [M|M]; [assumption|congruence].
    + exists x. split; [assumption|]. specialize (M x Ix). apply Qcle_lt_or_eq in M. destruct M as [M|M]; [assumption|congruence].
  - destruct pts as [|p1 [|p2 l]]; [destruct Ia| |cbn; lia]. destruct Ia as [<-|[]]. destruct Ib as [<-|[]]. exfalso. qlra.
Qed.

(** ** a value among the sets has a degree of at least 1/2 *)
Lemma half_list (ds : list Qc) : (forall d, In d ds -> 0 <= d) -> (forall i j di dj, nth_error ds i = Some di -> nth_error ds j = Some dj -> 0 < di -> 0 < dj -> (i <= j)%nat -> (j <= S i)%nat) ->
  qsum ds = 1 -> exists i d, nth_error ds i = Some d /\ qc 1 2 <= d.
Proof.
  induction ds as [|d ds IH]; intros N A S; [discriminate|]. rewrite qsum_cons in S.
  destruct (Qc_eq_dec d 0) as [->|P].
  - destruct IH as (i & d & E & L); [intros; apply N; right; assumption| |rewrite <- S; ring|exists (Datatypes.S i), d; auto].
    intros i j di dj Ei Ej Pi Pj L. assert (Q := A (Datatypes.S i) (Datatypes.S j) di dj Ei Ej Pi Pj ltac:(lia)). lia.
  - assert (Pd : 0 < d). { assert (Q := N d (or_introl eq_refl)). apply Qcle_lt_or_eq in Q. destruct Q as [Q|Q]; [assumption|congruence]. }
    assert (H2 : qc 1 2 + qc 1 2 = 1) by qex. destruct (qleb (qc 1 2) d) eqn:B; [apply qleb_le in B; exists 0%nat, d; auto|]. apply qleb_gt in B.
    destruct ds as [|d2 ds]. { clear IH. rewrite qsum_nil in S. generalize dependent (qc 1 2). intros h H2 B. exfalso. qlra. }
    assert (Z : qsum ds = 0).
    { assert (ZA : forall z, In z ds -> z = 0). { intros z I. apply In_nth_error in I. destruct I as [k I]. assert (Nz := N z (or_intror (or_intror (nth_error_In _ _ I)))). apply Qcle_lt_or_eq in Nz. destruct Nz as [Nz|Nz]; [|congruence].
        assert (Q := A 0%nat (Datatypes.S (Datatypes.S k)) d z eq_refl I Pd Nz ltac:(lia)). lia. }
      clear - ZA. induction ds as [|z ds IH]; [reflexivity|]. rewrite qsum_cons, (ZA z (or_introl eq_refl)), IH; [ring|intros; apply ZA; right; assumption]. }
    rewrite qsum_cons, Z in S. exists 1%nat, d2. split; [reflexivity|]. clear IH. generalize dependent (qc 1 2). intros h H2 B. qlra.
Qed.
Lemma map_snd_zip_show (show : Qc -> string) l : map snd (zip (map show l) l) = l.
Proof. unfold zip. induction l as [|y w IH]; cbn; [reflexivity|]. f_equal. exact IH. Qed.
Lemma set_peaks (show : Qc -> string) (f : Qc) rest sets : continuous_sets "point_set" (zip (map show (f :: rest)) (f :: rest)) = Ok sets -> map pb sets = f :: rest.
Proof.
  intro E. destruct rest as [|g rest]; [cbn in E; injection E as <-; reflexivity|]. set (d := zip (map show (f :: g :: rest)) (f :: g :: rest)) in *.
  assert (SD : map snd d = f :: g :: rest) by apply map_snd_zip_show.
  assert (LD : (2 <= List.length d)%nat) by (rewrite <- (map_length snd), SD; cbn; lia).
  destruct (@C03_sets "point_set"%string d LD) as (sets' & E' & LS & N). rewrite E in E'. injection E' as <-. rewrite <- SD. clear E SD LD.
  apply nth_error_ext. intro i. rewrite !nth_error_map. destruct (nth_error d i) as [[n y]|] eqn:ED.
  - destruct (N i n y ED) as (c & I & _ & PB & _). rewrite I. cbn. congruence.
  - apply nth_error_None in ED. assert (Q : nth_error sets i = None) by (apply nth_error_None; lia). rewrite Q. reflexivity.
Qed.
Section Among.
  Variables (show : Qc -> string) (show_cell : cell -> string) (X : table) (num cat : list string) (vars : list fvar).
  Hypothesis V : variables_of show show_cell X num cat vars.
  Hypothesis W : forall row, In row (tb_rows X) -> (List.length (tb_cols X) <= List.length row)%nat.

  Lemma among_half i v x : nth_error vars i = Some v -> among v x -> exists j s d, nth_error (fv_sets v) j = Some s /\ membership s x = Ok d /\ qc 1 2 <= d.
  Proof.
    intros HV [[name I]|(q & c & c' & -> & I & I' & L & L')].
    - apply In_nth_error in I. destruct I as [j I]. exists j, (FD name x), 1. split; [assumption|]. split; [rewrite discrete_degree; destruct (eq_dec x x); [reflexivity|congruence]|discriminate].
    - destruct (@variables_nth _ _ _ _ _ _ _ _ V W HV) as (col & C & _). destruct (proj2 V i v col HV C) as [V1 V2].
      destruct (in_dec string_dec (fv_name v) cat) as [J|J]. { destruct (V1 J) as (values & _ & _ & E). rewrite E in I. apply in_map_iff in I. destruct I as (y & Q & _). discriminate. }
      destruct (V2 J) as (_ & qs & f & rest & sets & _ & SS & _ & _ & ES & E). assert (PK := set_peaks show f rest sets ES). rewrite E in I, I' |- *.
      apply in_map_iff in I. destruct I as (c1 & Q & I). injection Q as ->. apply in_map_iff in I'. destruct I' as (c2 & Q & I'). injection Q as ->.
      assert (Pc : In (pb c) (f :: rest)) by (rewrite <- PK; apply in_map; assumption). assert (Pc' : In (pb c') (f :: rest)) by (rewrite <- PK; apply in_map; assumption).
      destruct rest as [|g rest].
      + destruct Pc as [Pc|[]]. destruct Pc' as [Pc'|[]]. cbn in ES. injection ES as <-. assert (q = f) by (apply Qcle_antisym; congruence). subst q.
        exists 0%nat. eexists. exists 1. split; [reflexivity|]. split; [|discriminate]. rewrite membership_valid by (split; apply Qcle_refl). f_equal. apply tri_peak.
      + set (d := zip (map show (f :: g :: rest)) (f :: g :: rest)) in *. assert (SD : map snd d = f :: g :: rest) by apply map_snd_zip_show.
        assert (LD : (2 <= List.length d)%nat) by (rewrite <- (map_length snd), SD; cbn; lia).
        destruct (@C02_all "point_set"%string d q LD) as (sets' & ds & E' & F & S1 & S2 & _); [rewrite SD; assumption|]. rewrite ES in E'. injection E' as <-. rewrite SD in S1.
        destruct (half_list ds) as (j & dj & Ej & Lj); [|exact S2|apply S1; eauto|].
        * intros m I0. apply In_nth_error in I0. destruct I0 as [k I0]. destruct (Forall2_nth_r F k I0) as (s & _ & M). apply membership_Ok in M. destruct M as [[A B] ->]. apply tri_01; assumption.
        * destruct (Forall2_nth_r F j Ej) as (s & Hs & M). exists j, (FC s), dj. split; [apply map_nth_error; assumption|auto].
  Qed.
  Lemma among_covered row : row_among vars row -> covered vars row (qc 1 2).
  Proof.
    intros A i v Hv. destruct (A i v Hv) as (x & Hx & AX). destruct (among_half i v x Hv AX) as (j & s & d & Hs & M & L). exists j, s. split; [assumption|].
    unfold lit_degree. cbn [fst snd]. rewrite Hv, Hs, Hx, M. exact L.
  Qed.
  (** ** two values, two sets *)
  Lemma two_sets y th i v : peaks_of show X y th cat vars -> List.length (tb_rows X) = List.length y -> nth_error vars i = Some v -> two_values X i -> (2 <= List.length (fv_sets v))%nat.
  Proof.
    intros PK LY HV (r & r' & Ir & Ir' & N). destruct (@variables_nth _ _ _ _ _ _ _ _ V W HV) as (col & C & LC & NC). destruct (proj2 V i v col HV C) as [V1 V2].
    apply In_nth_error in Ir. destruct Ir as [k Hk]. apply In_nth_error in Ir'. destruct Ir' as [k' Hk']. assert (E1 := NC _ _ Hk). assert (E2 := NC _ _ Hk').
    assert (L1 : (k < List.length (tb_rows X))%nat) by (apply nth_error_Some; congruence). assert (L2 : (k' < List.length (tb_rows X))%nat) by (apply nth_error_Some; congruence).
    destruct (nth_error col k) as [x|] eqn:Ex; [|apply nth_error_None in Ex; lia]. destruct (nth_error col k') as [x'|] eqn:Ex'; [|apply nth_error_None in Ex'; lia].
    assert (NX : x <> x') by congruence.
    assert (TW : forall A (l : list A) u w, In u l -> In w l -> u <> w -> (2 <= List.length l)%nat).
    { intros A l u w Iu Iw Nu. destruct l as [|z [|z' l]]; [destruct Iu| |cbn; lia]. destruct Iu as [->|[]]. destruct Iw as [->|[]]. congruence. }
    destruct (in_dec string_dec (fv_name v) cat) as [J|J].
    - destruct (V1 J) as (values & _ & IV & E). rewrite E, map_length. apply (TW _ values x x'); [apply IV; eapply nth_error_In; eassumption|apply IV; eapply nth_error_In; eassumption|assumption].
    - destruct (V2 J) as (_ & qs & f & rest & sets & CE & _). subst col. destruct (PK i v qs HV C J) as (pts & sets' & ES & CS & NC1 & NC2).
      rewrite nth_error_map in Ex, Ex'. destruct (nth_error qs k) as [q|] eqn:Eq; [|discriminate]. destruct (nth_error qs k') as [q'|] eqn:Eq'; [|discriminate]. cbn in Ex, Ex'. injection Ex as <-. injection Ex' as <-. assert (NQ : q <> q') by congruence.
      assert (LP : (2 <= List.length pts)%nat).
      { assert (LQ : (2 <= List.length qs)%nat) by (apply (TW _ qs q q'); [eapply nth_error_In; eassumption|eapply nth_error_In; eassumption|assumption]).
        assert (SD : nearly_constant qs \/ ~ nearly_constant qs) by (rewrite <- (@small_std_spec qs LQ); destruct (small_std qs); [left; reflexivity|right; discriminate]). destruct SD as [S|S].
        - destruct (NC1 S) as [_ IP]. apply (TW _ pts q q'); [apply IP; eapply nth_error_In; eassumption|apply IP; eapply nth_error_In; eassumption|assumption].
        - specialize (NC2 S). apply (two_points_len 0 th (combine qs y) pts); [|assumption]. rewrite P_Entropy.map_fst_combine by (rewrite <- LY, <- LC, map_length; reflexivity).
          exists q, q'. split; [eapply nth_error_In; eassumption|]. split; [eapply nth_error_In; eassumption|assumption]. }
      rewrite ES, map_length. destruct pts as [|f' rest']; [cbn in LP; lia|]. rewrite <- (map_length pb), (set_peaks show f' rest' sets' CS). exact LP.
  Qed.
End Among.
