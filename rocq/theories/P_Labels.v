(** * Calling the classes by other labels *)
From Verif Require Import Prelude M_Fuzzy M_Discretize M_Rule M_FDT M_FBDT S_Rule S_FDT S_FBDT P_FuzzySet P_FuzzyVar P_Entropy P_Rule P_FDT P_FDT2 P_FDT3 P_FDT4 P_FBDT P_FBDT2 P_FBDT3 P_Degrees S_Labels.
From Coq Require Import Reals Lra.
Set Implicit Arguments.
Open Scope Qc_scope.

Lemma increasing_distinct f y : increasing_on f y -> distinct_on f y.
Proof.
  intros H a b A B E. destruct (Z.lt_trichotomy a b) as [L|[L|L]]; [|assumption|].
  - specialize (H a b A B L). lia.
  - specialize (H b a B A L). lia.
Qed.
Lemma zunique_relabel_In (f : Z -> Z) (y : list Z) (c' : Z) : In c' (zunique (map f y)) <-> exists c, In c y /\ f c = c'.
Proof. rewrite zunique_In, in_map_iff. split; intros [c [A B]]; exists c; auto. Qed.
Lemma zunique_relabel (f : Z -> Z) (y : list Z) : distinct_on f y -> Permutation (zunique (map f y)) (map f (zunique y)).
Proof.
  intro D. apply NoDup_Permutation; [apply zunique_NoDup| |].
  - assert (N := zunique_NoDup y). assert (I : incl (zunique y) y) by (intros x Hx; apply zunique_In; assumption). revert I.
    induction N as [|x l Hx N IH]; intro I; cbn [map]; constructor.
    + intro H. apply in_map_iff in H. destruct H as [x' [E H]]. apply Hx. replace x with x'; [assumption|]. apply D; [apply I; right; assumption|apply I; left; reflexivity|assumption].
    + apply IH. intros z Hz. apply I. right. assumption.
  - intro c'. rewrite zunique_relabel_In, in_map_iff. split; intros [c [A B]]; exists c; [rewrite zunique_In|rewrite zunique_In in B]; auto.
Qed.
Lemma zunique_increasing (f : Z -> Z) (y : list Z) : increasing_on f y -> zunique (map f y) = map f (zunique y).
Proof.
  intro H. apply (@sorted_ext Z Z.ltb zltb_trans Z.ltb_irrefl).
  - apply unique_by_sorted; [exact zltb_trans|exact zltb_total].
  - assert (S := @unique_by_sorted Z Z.ltb zltb_trans zltb_total y). change (unique_by Z.ltb y) with (zunique y) in S.
    assert (I : incl (zunique y) y) by (intros x Hx; apply zunique_In; assumption). revert I.
    induction S as [|x l S IH F]; intro I; cbn [map]; constructor.
    + apply IH. intros z Hz. apply I. right. assumption.
    + apply Forall_forall. intros c' Hc. apply in_map_iff in Hc. destruct Hc as [c [<- Hc]]. rewrite Forall_forall in F. specialize (F c Hc).
      apply Z.ltb_lt in F. apply Z.ltb_lt. apply H; [apply I; left; reflexivity|apply I; right; assumption|assumption].
  - intro c'. fold zunique. rewrite zunique_relabel_In, in_map_iff. split; intros [c [A B]]; exists c; [rewrite zunique_In|rewrite zunique_In in B]; auto.
Qed.
Lemma distinct_incl f y l : distinct_on f y -> incl l y -> distinct_on f l.
Proof. intros D I a b A B. apply D; apply I; assumption. Qed.

Section Relabel.
  Variable f : Z -> Z.
  Variable y : list Z.
  Hypothesis HD : distinct_on f y.

  Lemma card_relabel mu c : In c y -> class_card mu (map f y) (f c) = class_card mu y c.
  Proof.
    intro Hc. unfold class_card. f_equal. assert (I : incl y y) by apply incl_refl. revert I. generalize y at 1 3 4 as l. intros l I. revert mu.
    induction l as [|k l IH]; intros [|m mu]; try reflexivity. change (zip (m :: mu) (map f (k :: l))) with ((m, f k) :: zip mu (map f l)). change (zip (m :: mu) (k :: l)) with ((m, k) :: zip mu l).
    cbn [filter snd].
    assert (E : Z.eqb (f k) (f c) = Z.eqb k c).
    { destruct (Z.eqb_spec k c) as [->|N]; [apply Z.eqb_refl|]. apply Z.eqb_neq. intro Q. apply N. apply HD; [apply I; left; reflexivity|assumption|assumption]. }
    rewrite E. assert (IH' := IH (fun z Hz => I z (or_intror Hz)) mu). destruct (Z.eqb k c); cbn [map]; [f_equal|]; assumption.
  Qed.
  Lemma entropy_relabel mu : fuzzy_entropy mu (map f y) = fuzzy_entropy mu y.
  Proof.
    unfold fuzzy_entropy. rewrite (@rsum_perm _ _ (Permutation_map (entropy_term mu (map f y)) (zunique_relabel HD))). rewrite map_map.
    apply rsum_map_ext. intros c Hc. rewrite zunique_In in Hc. unfold entropy_term. rewrite (card_relabel mu c Hc). reflexivity.
  Qed.
  Lemma weight_relabel (w : Z -> Qc) c : In c y ->
    qsum (map snd (filter (fun kw => Z.eqb (f (fst kw)) (f c)) (map (fun c => (c, w c)) (zunique y)))) = w c.
  Proof.
    intro Hc. assert (N := zunique_NoDup y). assert (I : incl (zunique y) y) by (intros x Hx; apply zunique_In; assumption). rewrite <- zunique_In in Hc. revert N I Hc.
    generalize (zunique y) as l. induction l as [|k l IH]; intros N I Hc; [destruct Hc|]. inversion N as [|? ? Nk Nl]; subst. cbn [map filter fst].
    destruct (Z.eqb_spec (f k) (f c)) as [E|E].
    - assert (K : k = c) by (apply HD; [apply I; left; reflexivity|apply I; assumption|assumption]). subst k. cbn [map snd]. rewrite qsum_cons.
      replace (filter _ _) with (@nil (Z * Qc)); [cbn [map]; rewrite qsum_nil; ring|]. symmetry.
      assert (G : forall l', incl l' l -> filter (fun kw : Z * Qc => Z.eqb (f (fst kw)) (f c)) (map (fun c => (c, w c)) l') = []).
      { induction l' as [|k l' IH']; intro J; [reflexivity|]. cbn [map filter fst]. rewrite IH' by (intros z Hz; apply J; right; assumption).
        destruct (Z.eqb_spec (f k) (f c)) as [Q|Q]; [|reflexivity]. exfalso. apply Nk. replace c with k; [apply J; left; reflexivity|].
        apply HD; [apply I; right; apply J; left; reflexivity|apply I; assumption|assumption]. }
      apply G, incl_refl.
    - apply IH; [assumption|intros z Hz; apply I; right; assumption|]. destruct Hc as [Q|Q]; [subst; congruence|assumption].
  Qed.
  Lemma relabel_dist (w : Z -> Qc) : relabel_weights f (map (fun c => (c, w c)) (zunique y)) =
    map (fun c' => (c', qsum (map snd (filter (fun kw => Z.eqb (f (fst kw)) c') (map (fun c => (c, w c)) (zunique y)))))) (zunique (map f y)).
  Proof.
    unfold relabel_weights. f_equal. apply zunique_ext. intro x. rewrite map_map. cbn [fst]. rewrite !in_map_iff.
    split; intros [c [A B]]; exists c; [rewrite zunique_In in B|rewrite zunique_In]; auto.
  Qed.
  Lemma class_value_relabel mu : get_class_value mu (map f y) = rmap (relabel_weights f) (get_class_value mu y).
  Proof.
    unfold get_class_value. destruct (qeqb (qsum mu) 0); [reflexivity|]. cbn [rmap]. apply (f_equal (@Ok _)).
    rewrite (relabel_dist (fun c => class_card mu y c / qsum mu)). apply map_ext_in. intros c' Hc. rewrite zunique_relabel_In in Hc. destruct Hc as [c [Hc <-]].
    rewrite (weight_relabel (fun c => class_card mu y c / qsum mu) c Hc), card_relabel by assumption. reflexivity.
  Qed.
  Lemma masked_relabel mu : masked mu (map f y) = map f (masked mu y).
  Proof.
    unfold masked. clear HD. revert mu. induction y as [|k l IH]; intros [|m mu]; try reflexivity.
    change (zip (m :: mu) (map f (k :: l))) with ((m, f k) :: zip mu (map f l)). change (zip (m :: mu) (k :: l)) with ((m, k) :: zip mu l).
    cbn [filter fst]. destruct (qltb 0 m); cbn [map snd]; rewrite IH; reflexivity.
  Qed.
  Lemma masked_incl mu : incl (masked mu y) y.
  Proof.
    intros z Hz. unfold masked in Hz. apply in_map_iff in Hz. destruct Hz as [[m k] [<- Hz]]. apply filter_In in Hz. destruct Hz as [Hz _]. exact (in_combine_r _ _ _ _ Hz).
  Qed.
  Lemma stop_relabel cfg gain mu depth : stop_met cfg gain (masked mu (map f y)) depth = stop_met cfg gain (masked mu y) depth.
  Proof.
    unfold stop_met. rewrite masked_relabel. assert (P := zunique_relabel (distinct_incl HD (@masked_incl mu))).
    rewrite (Permutation_length P), !map_length. reflexivity.
  Qed.
  Lemma feature_gain_relabel tn mu XM ft : feature_gain tn mu XM (map f y) ft = feature_gain tn mu XM y ft.
  Proof.
    unfold feature_gain. destruct (ret_opt KeyError (dget ft XM)) as [sets|]; [|reflexivity]. cbn [bind]. cbv zeta. destruct (qeqb (qsum mu) 0); [reflexivity|].
    rewrite entropy_relabel. do 3 f_equal. f_equal. f_equal. apply map_ext. intros [n m]. cbn [snd]. rewrite entropy_relabel. reflexivity.
  Qed.
  Lemma max_gain_relabel tn mu fts XM : max_f_gain tn mu fts XM (map f y) = max_f_gain tn mu fts XM y.
  Proof.
    unfold max_f_gain. generalize (""%string, 0%R, @nil (string * list Qc)) as b. induction fts as [|ft fts IH]; intro b; [reflexivity|]. cbn [foldM]. rewrite feature_gain_relabel.
    destruct (feature_gain tn mu XM y ft) as [g|]; cbn [bind]; [|reflexivity]. destruct (Rltb _ _); cbn [bind]; apply IH.
  Qed.
  Lemma fit_node_relabel cfg ord XM : forall fuel node path feats depth,
    partial_fit fuel cfg ord XM (map f y) (relabel f node) path feats depth = rmap (relabel f) (partial_fit fuel cfg ord XM y node path feats depth).
  Proof.
    induction fuel as [|fuel IH]; intros node path feats depth; [reflexivity|]. cbn [partial_fit].
    destruct node as [l cs cv lv va vr mu]. cbn [relabel t_mu t_children t_value t_var t_class]. rewrite max_gain_relabel.
    destruct (max_f_gain qmin mu (ord path feats) XM y) as [[[att g] cm]|]; cbn [bind rmap]; [|reflexivity].
    rewrite stop_relabel. destruct (stop_met cfg g (masked mu y) depth).
    { rewrite class_value_relabel. destruct (get_class_value mu y); cbn [bind rmap relabel]; reflexivity. }
    destruct (dget att XM) as [sets|]; cbn [ret_opt bind rmap]; [|reflexivity].
    match goal with |- bind (mapM ?g' ?l) _ = rmap _ (bind (mapM ?g ?l) _) => rewrite (@mapM_rmap _ _ g g' (relabel f) l) end.
    - match goal with |- bind (rmap _ ?m) _ = _ => destruct m as [ts|] end; cbn [rmap bind relabel]; [|reflexivity]. rewrite map_app. reflexivity.
    - intros [i value]. destruct (negb (memb att feats)); [reflexivity|].
      destruct (dget att (f_positions (f_vars cfg))) as [a|]; cbn [ret_opt bind rmap]; [|reflexivity].
      destruct (nth_error (f_vars cfg) a) as [v|]; cbn [ret_opt bind rmap]; [|reflexivity].
      destruct (dget value cm) as [m|]; cbn [ret_opt bind rmap]; [|reflexivity]. cbv zeta. destruct (qltb 0 (qsum m)).
      + rewrite <- IH. reflexivity.
      + rewrite class_value_relabel. destruct (get_class_value mu y); cbn [bind rmap relabel map]; reflexivity.
  Qed.
  Lemma fit_relabel cfg ord root X : fit cfg ord (relabel f root) X (map f y) = rmap (relabel f) (fit cfg ord root X y).
  Proof.
    unfold fit. rewrite map_length. destruct (_ || _); [reflexivity|].
    destruct (dataset_membership X (f_vars cfg)) as [XM|]; cbn [bind rmap]; [|reflexivity].
    rewrite <- fit_node_relabel. destruct root. reflexivity.
  Qed.
End Relabel.
