(** * FDT and ID3 on categorical data *)
From Verif Require Import Prelude M_Fuzzy M_Discretize M_Rule M_FDT M_ID3 S_Rule S_FDT S_Crisp P_FuzzySet P_FuzzyVar P_Entropy P_Rule P_FDT P_FDT2 P_FDT3 P_FDT4 P_Crisp P_Crisp2 P_Metrics S_ID3 P_ID3 P_ID3b P_ID3c S_Same.
From Coq Require Import Reals Lra.
Set Implicit Arguments.
Open Scope Qc_scope.
Local Notation eqb := Prelude.eqb.

Section Data.
  Variables (vars : list fvar) (X : list (list cell)) (y : list Z).
  Hypothesis CV : column_variables X vars.
  Hypothesis W : forall row, In row X -> (List.length vars <= List.length row)%nat.
  Hypothesis LE : List.length X = List.length y.

  Lemma column_known row : (forall a, (a < List.length vars)%nat -> exists v, nth_error row a = Some v /\ occurs X a v) ->
    crisp vars row /\ readable vars [row].
  Proof.
    intro K. apply categorical_crisp. intros a v Hv. destruct (@CV _ _ Hv) as (nvs & E & ND & O). split; [exists nvs; auto|].
    destruct (K a) as (x & Hx & Ox); [apply nth_error_Some; congruence|]. exists x. split; [assumption|]. apply O in Ox. apply in_map_iff in Ox.
    destruct Ox as [[n z] [Q I]]. cbn in Q. subst z. exists n. rewrite E. apply in_map_iff. exists (n, x). auto.
  Qed.
  Lemma training_crisp row : In row X -> crisp vars row.
  Proof.
    intro H. apply column_known. intros a L. destruct (nth_error row a) as [v|] eqn:E.
    - exists v. split; [reflexivity|]. exists row. auto.
    - apply nth_error_None in E. assert (Q := @W _ H). lia.
  Qed.
  Lemma lit_asked row l v s : nth_error vars (fst l) = Some v -> nth_error (fv_sets v) (snd l) = Some s ->
    qeqb (lit_degree vars row l) 1 = has_value (fst l) (asked vars l) row.
  Proof.
    intros Hv Hs. unfold lit_degree, asked, has_value. rewrite Hv, Hs. destruct (@CV _ _ Hv) as (nvs & E & _).
    assert (Q := Hs). rewrite E, nth_error_map in Q. destruct (nth_error nvs (snd l)) as [[n z]|]; [|discriminate]. cbn in Q. injection Q as <-.
    destruct (nth_error row (fst l)) as [x|] eqn:Hx.
    - cbn [membership]. destruct (eqb (Some x) (Some z)) eqn:B.
      + apply eqb_eq in B. injection B as ->. rewrite eqb_refl. reflexivity.
      + destruct (eqb x z) eqn:B2; [apply eqb_eq in B2; subst; rewrite eqb_refl in B; discriminate|reflexivity].
    - symmetry. destruct (eqb None (Some z)) eqn:B; [apply eqb_eq in B; discriminate|reflexivity].
  Qed.
  Lemma inside_tests row p : literals vars p -> inside vars row p = on_path (tests vars p) row.
  Proof.
    intro H. unfold inside, on_path, tests. induction p as [|l p IH]; [reflexivity|]. cbn [forallb map fst snd].
    destruct (H l (or_introl eq_refl)) as (v & s & Hv & Hs). rewrite (lit_asked row l Hv Hs), IH; [reflexivity|]. intros z Hz. apply H. right. assumption.
  Qed.
  Lemma members_tests p : literals vars p -> members vars X y p = map snd (reaching X y (tests vars p)).
  Proof.
    intro H. unfold members, reaching. f_equal. apply filter_ext. intros [r c]. cbn [fst]. apply inside_tests. assumption.
  Qed.
  Lemma reaching_members p : S_FDT.reaching vars X y p = members vars X y p.
  Proof.
    unfold S_FDT.reaching, members, zip. f_equal. apply filter_ext_in. intros [r c] H. cbn [fst]. apply in_combine_l in H.
    rewrite (activation_inside p qmin_crisp (@training_crisp _ H)). destruct (inside vars r p); reflexivity.
  Qed.
  Lemma members_mass p : mass vars X p = qn (List.length (members vars X y p)).
  Proof. apply crisp_mass; [exact training_crisp|assumption]. Qed.
  Lemma card_members p c : class_card (acts vars X p) y c = frequency (members vars X y p) c.
  Proof.
    rewrite <- (@crisp_class_mass vars X y p c training_crisp LE). symmetry. apply class_mass_card.
  Qed.
  Lemma frequency_times D c : frequency (map snd D) c = qn (times c D).
  Proof.
    unfold frequency, times. f_equal. induction D as [|[r k] D IH]; [reflexivity|]. cbn [map snd count_occ filter]. destruct (Z.eq_dec k c) as [->|N].
    - rewrite Z.eqb_refl. cbn [List.length]. f_equal. exact IH.
    - destruct (Z.eqb_spec k c); [congruence|]. exact IH.
  Qed.
  Lemma reaching_incl p : incl (map snd (reaching X y p)) y.
  Proof. intros c H. apply in_map_iff in H. destruct H as [[r k] [<- H]]. apply filter_In in H. destruct H as [H _]. apply in_combine_r in H. exact H. Qed.
  Lemma entropy_bits p : literals vars p -> fuzzy_entropy (acts vars X p) y = bits (reaching X y (tests vars p)).
  Proof.
    intro H. unfold fuzzy_entropy, bits. set (D := reaching X y (tests vars p)).
    assert (Q : forall c, class_card (acts vars X p) y c = qn (times c D)) by (intro c; rewrite card_members, members_tests by assumption; apply frequency_times).
    assert (S : qsum (acts vars X p) = qn (List.length D)).
    { fold (mass vars X p). rewrite members_mass, members_tests by assumption. rewrite map_length. reflexivity. }
    rewrite <- (@rsum_superset Z (entropy_term (acts vars X p) y) (zunique (map snd D)) (zunique y)).
    - apply rsum_map_ext. intros c Hc. rewrite zunique_In in Hc. unfold entropy_term. cbv zeta. rewrite Q, S.
      assert (T : (0 < times c D)%nat) by (rewrite times_count; apply count_pos; assumption).
      assert (T' : 0 < qn (times c D)) by (apply qn_pos; assumption). apply qltb_lt in T'. rewrite T'.
      assert (N : (0 < List.length D)%nat) by (destruct D; [destruct Hc|cbn; lia]).
      assert (N' : qn (List.length D) <> 0) by (intro E; assert (P := qn_pos N); rewrite E in P; qlra).
      rewrite qr_div by assumption. rewrite !qr_qn. reflexivity.
    - apply zunique_NoDup.
    - apply zunique_NoDup.
    - intros c Hc. rewrite zunique_In. rewrite zunique_In in Hc. exact (reaching_incl _ _ Hc).
    - intros c _ Hc. unfold entropy_term. cbv zeta. rewrite Q. rewrite times_count, count_zero; [reflexivity|]. intro I. apply Hc. rewrite zunique_In. exact I.
  Qed.
  Lemma reaching_snoc p i v : reaching X y (p ++ [(i, v)]) = having i v (reaching X y p).
  Proof.
    unfold reaching, having. rewrite filter_filter. apply filter_ext. intros [r c]. cbn [fst]. unfold on_path. rewrite forallb_app. cbn [forallb fst snd]. rewrite andb_true_r. reflexivity.
  Qed.
  Lemma tests_snoc p l : tests vars (p ++ [l]) = tests vars p ++ [(fst l, asked vars l)].
  Proof. unfold tests. rewrite map_app. reflexivity. Qed.
  Lemma literals_snoc p a v i : literals vars p -> nth_error vars a = Some v -> (i < List.length (fv_sets v))%nat -> literals vars (p ++ [(a, i)]).
  Proof.
    intros H Hv Hi l Hl. apply in_app_iff in Hl. destruct Hl as [Hl|[<-|[]]]; [apply H; assumption|]. cbn [fst snd]. 
    destruct (nth_error (fv_sets v) i) as [s|] eqn:E; [|apply nth_error_None in E; lia]. exists v, s. auto.
  Qed.
  Lemma gain_equal p a : literals vars p -> (a < List.length vars)%nat -> reaching X y (tests vars p) <> [] ->
    info_gain vars X y p a = information_gain (reaching X y (tests vars p)) a.
  Proof.
    intros H La NE. destruct (nth_error vars a) as [v|] eqn:Hv; [|apply nth_error_None in Hv; lia].
    unfold info_gain, information_gain. rewrite Hv, (entropy_bits H). set (D := reaching X y (tests vars p)) in *. f_equal. 
    assert (M : qr (mass vars X p) = INR (List.length D)) by (rewrite members_mass, members_tests, map_length, qr_qn by assumption; reflexivity). rewrite M.
    assert (LR : (0 < INR (List.length D))%R) by (apply lt_0_INR; destruct D; [congruence|cbn; lia]).
    destruct (@CV _ _ Hv) as (nvs & E & ND & O).
    assert (VS : map (fun i => asked vars (a, i)) (seq 0 (List.length (fv_sets v))) = map snd nvs).
    { rewrite E, map_length. apply nth_ext with (d := CNum 0) (d' := CNum 0); [rewrite !map_length, seq_length; reflexivity|].
      intros k Hk. rewrite map_length, seq_length in Hk. rewrite (nth_indep _ (CNum 0) (asked vars (a, 0%nat))) by (rewrite map_length, seq_length; assumption).
      rewrite (map_nth (fun i => asked vars (a, i))), seq_nth by assumption. cbn [Nat.add]. unfold asked. cbn [fst snd]. rewrite Hv, E, nth_error_map.
      destruct (nth_error nvs k) as [[n z]|] eqn:Q; [|apply nth_error_None in Q; lia]. cbn [option_map]. cbn [fst snd].
      symmetry. apply nth_error_nth. rewrite nth_error_map, Q. reflexivity. }
    transitivity (rsum (map (fun z => INR (List.length (having a z D)) / INR (List.length D) * bits (having a z D))%R (map snd nvs))).
    - rewrite <- VS, map_map. unfold Rdiv at 1.
      match goal with |- (rsum (map ?f ?l) * ?k)%R = rsum (map ?g ?l) => assert (G : forall l', incl l' l -> (rsum (map f l') * k)%R = rsum (map g l')) end.
      { induction l' as [|i l' IH]; intro I; [cbn; ring|]. cbn [map]. rewrite !rsum_cons, Rmult_plus_distr_r.
        assert (Hi : (i < List.length (fv_sets v))%nat). { assert (Q := I i (or_introl eq_refl)). apply in_seq in Q. lia. }
        assert (L1 := @literals_snoc p a v i H Hv Hi).
        rewrite (entropy_bits L1), members_mass, members_tests, map_length, qr_qn by assumption. rewrite tests_snoc, reaching_snoc. fold D. cbn [fst].
        assert (IH' := IH (fun z Hz => I z (or_intror Hz))). unfold rsum in IH' |- *. rewrite IH'. field. lra. }
      apply G. intros z Hz. exact Hz.
    - symmetry. apply rsum_superset.
      + apply NoDup_nodup.
      + assumption.
      + intros z Hz. rewrite nodup_In in Hz. apply O. apply in_flat_map in Hz. destruct Hz as [[r c] [I Z]]. cbn [fst] in Z.
        unfold D, reaching in I. apply filter_In in I. destruct I as [I _]. apply in_combine_l in I. exists r. split; [assumption|].
        destruct (nth_error r a); [destruct Z as [->|[]]; reflexivity|destruct Z].
      + intros z _ Hz. rewrite nodup_In in Hz. assert (Em : having a z D = []).
        { unfold having. destruct (filter _ D) as [|xy l] eqn:F; [reflexivity|exfalso]. assert (I : In xy (filter (fun xy => has_value a z (fst xy)) D)) by (rewrite F; left; reflexivity).
          apply filter_In in I. destruct I as [I1 I2]. unfold has_value in I2. apply eqb_eq in I2. apply Hz, in_flat_map. exists xy. split; [assumption|]. rewrite I2. left. reflexivity. }
        rewrite Em. cbn [List.length INR]. unfold Rdiv. ring.
  Qed.
End Data.
