(** * FDT and ID3 on categorical data: the same predictions *)
From Verif Require Import Prelude M_Fuzzy M_Discretize M_Rule M_FDT M_ID3 S_Rule S_FDT S_Crisp P_FuzzySet P_FuzzyVar P_Entropy P_Rule P_FDT P_FDT2 P_FDT3 P_FDT4 P_Crisp P_Crisp2 P_Metrics Properties_FDT S_ID3 P_ID3 P_ID3b P_ID3c Properties_ID3 Properties_ID3b S_Same P_Same.
From Coq Require Import Reals Lra.
Set Implicit Arguments.
Open Scope Qc_scope.
Local Notation eqb := Prelude.eqb.

(** the first of the most frequent classes in increasing order is the least *)
Lemma first_best (f : Z -> nat) L c k : StronglySorted Z.lt L ->
  max_by (fun a b : Z * nat => Nat.ltb (snd a) (snd b)) (map (fun c => (c, f c)) L) = Some (c, k) -> best_class L (fun c => qn (f c)) c.
Proof.
  intros S H. rewrite (@max_by_ext _ _ _ (fun a b => qltb (qn (snd a)) (qn (snd b)))) in H.
  2:{ intros a b. destruct (Nat.ltb_spec (snd a) (snd b)) as [H1|H1]; symmetry; [apply qltb_lt, qn_lt|apply qltb_ge, qn_le]; assumption. }
  apply (max_by_spec (fun a : Z * nat => qn (snd a))) in H. destruct H as (I & M & l1 & l2 & E & F).
  assert (K : k = f c) by (apply in_map_iff in I; destruct I as [c' [Q _]]; congruence). subst k.
  split; [apply in_map_iff in I; destruct I as [c' [Q I]]; congruence|].
  intros c' Hc'. split.
  - apply (M (c', f c')). apply in_map_iff. exists c'. auto.
  - intro Lt. rewrite Forall_forall in F. apply (F (c', f c')).
    assert (Hin : In (c', f c') (l1 ++ (c, f c) :: l2)) by (rewrite <- E; apply in_map_iff; exists c'; auto).
    apply in_app_iff in Hin. destruct Hin as [Hin|[Q|Hin]]; [assumption|injection Q as Q _; lia|exfalso].
    assert (S1 : StronglySorted Z.lt (map fst (l1 ++ (c, f c) :: l2))) by (rewrite <- E, map_map; cbn [fst]; rewrite map_id; assumption).
    rewrite map_app in S1. cbn [map fst] in S1. clear - S1 Hin Lt. induction (map fst l1) as [|a l IH]; cbn [app] in S1; inversion S1; subst; [|apply IH; assumption].
    rewrite Forall_forall in H2. assert (Q := H2 c' (in_map fst _ _ Hin)). lia.
Qed.

Section Classes.
  Variables (cfg : id3_cfg) (cls : list Z -> list Z) (fts : list string -> list string) (root : itree) (X : list (list cell)) (y : list Z) (t : itree).
  Hypothesis HT : id3_trained cfg cls fts root X y t.
  Hypothesis HC : forall z, cls z = zunique z.
  Hypothesis PR : i_prunning cfg = false.

  Lemma fitn_class SP yc fuel D r0 depth erased r c k : fitn cfg cls fts SP yc (S fuel) D r0 depth erased = Ok r ->
    max_by (fun a b : Z * nat => Nat.ltb (snd a) (snd b)) (map (fun c => (c, count_class c (map snd D))) (cls (map snd D))) = Some (c, k) -> i_class r = c.
  Proof.
    intros H E. unfold fitn in H. cbn [id3_partial_fit] in H. cbv zeta in H. rewrite E in H.
    destruct (Nat.eqb _ 0); [discriminate|]. destruct (Z.leb _ depth); [injection H as <-; reflexivity|]. destruct (Z.ltb _ _); [injection H as <-; reflexivity|].
    match type of H with bind ?r _ = _ => destruct r as [best|]; [|discriminate] end. cbn [bind] in H.
    match type of H with bind ?r _ = _ => destruct r as [name|]; [|discriminate] end. cbn [bind] in H.
    match type of H with bind ?r _ = _ => destruct r as [ch|]; [|discriminate] end. cbn [bind] in H.
    rewrite PR in H. injection H as <-. reflexivity.
  Qed.
  Lemma node_class p n : inode_at t p n -> reaching X y p <> [] -> best_class (zunique y) (frequency (map snd (reaching X y p))) (i_class n).
  Proof.
    intros H R. destruct (node_trained HT H) as (SP & C & [(_ & F & fuel & t' & E & _)|(R' & _)]); [|congruence].
    destruct (@majority_ok cfg cls fts (proj1 (proj2 HT)) _ R) as (c & k & M & _).
    assert (QC : i_class n = c) by (eapply fitn_class; eassumption).
    rewrite QC. rewrite HC in M. apply first_best in M; [|apply zunique_sorted].
    set (L := map snd (reaching X y p)) in *.
    assert (Q : forall c, qn (count_class c L) = frequency L c).
    { intro c'. unfold L. rewrite frequency_times, times_count. reflexivity. }
    destruct M as [I M]. assert (Ic : In c L) by (apply (proj1 (zunique_In _ _)); assumption). split.
    - apply (proj2 (zunique_In _ _)). assert (Q2 : incl L y) by apply reaching_incl. exact (Q2 _ Ic).
    - intros c' _. destruct (in_dec Z.eq_dec c' L) as [J|J].
      + rewrite <- !Q. apply M. apply (proj2 (zunique_In _ _)). assumption.
      + rewrite <- !Q. rewrite (@count_zero c' L) by assumption. assert (P : (0 < count_class c L)%nat) by (apply count_pos; assumption). split; [apply qn_le; lia|]. intros _. apply qn_lt. assumption.
  Qed.
  Lemma leaf_limit p n : inode_at t p n -> i_leaf n = true -> reaching X y p <> [] ->
    (i_max_depth cfg <= Z.of_nat (List.length p))%Z \/ (Z.of_nat (List.length (reaching X y p)) < i_min_examples cfg)%Z.
  Proof.
    intros H L R. destruct (node_trained HT H) as (SP & C & [(_ & F & fuel & t' & E & _)|(R' & _)]); [|congruence].
    destruct (@step_eq cfg cls fts SP (zunique y) (proj1 (proj2 HT)) (cx_nodup C) (cx_some C) (cx_sp C) fuel _ t' (Z.of_nat (List.length p))
      (map (fun iv => nth (fst iv) (i_features cfg) ""%string) p) F R) as (c & k & best & name & M & P & N & Q).
    rewrite E in Q. destruct (P_ID3b.stops cfg (Z.of_nat (List.length p)) (List.length (reaching X y p))) eqn:S.
    - unfold P_ID3b.stops in S. apply orb_true_iff in S. destruct S as [S|S]; [left|right]; lia.
    - exfalso. symmetry in Q. match type of Q with bind ?r _ = _ => destruct r as [ch|]; [|discriminate] end. cbn [bind] in Q.
      unfold finish in Q. rewrite PR in Q. injection Q as <-. discriminate L.
  Qed.
  Lemma inner_some p n : inode_at t p n -> i_leaf n = false -> (i_max_depth cfg <= Z.of_nat (List.length (i_features cfg)))%Z ->
    exists i, i_var n = Some i /\ (Z.of_nat (List.length p) < i_max_depth cfg)%Z.
  Proof.
    intros H L MD. destruct (inner_trained HT H L) as (SP & c & k & fuel & t' & best & ch & C & R & F & M & _ & _ & S & P & G & V & _).
    assert (D : (Z.of_nat (List.length p) < i_max_depth cfg)%Z).
    { unfold P_ID3b.stops in S. apply orb_false_iff in S. destruct S as [S _]. lia. }
    destruct (fst best) as [[i spl]|] eqn:B; [exists i; auto|exfalso]. unfold picked in P. rewrite B in P. destruct P as [P _].
    set (er := map (fun iv : nat * cell => nth (fst iv) (i_features cfg) ""%string) p) in *.
    destruct (@fts_props cfg cls fts (proj1 (proj2 HT)) er) as [_ Q]. rewrite P in Q.
    assert (I : incl (i_features cfg) er).
    { intros f Hf. destruct (in_dec string_dec f er) as [J|J]; [assumption|]. exfalso. apply (proj2 (Q f)). auto. }
    apply (NoDup_incl_length (cx_nodup C)) in I. unfold er in I. rewrite map_length in I. lia.
  Qed.
  (** below a node whose rows are all of one class, every known row gets that class *)
  Lemma pure_predict x c : known cfg X x -> (i_max_depth cfg <= Z.of_nat (List.length (i_features cfg)))%Z ->
    forall m p n, (List.length (i_features cfg) <= m + List.length p)%nat -> inode_at t p n -> on_path p x = true -> reaching X y p <> [] ->
    (forall k, In k (map snd (reaching X y p)) -> k = c) -> id3_tree_predict t x = Ok (Some c).
  Proof.
    intros K MD. induction m as [|m IH]; intros p n Lm H O R A.
    - rewrite (predict_path HT x H O). destruct (i_leaf n) eqn:L.
      + rewrite (predict_leaf _ _ L). rewrite (A (i_class n)); [reflexivity|]. apply (C37_majority_class _ _ _ _ _ _ _ _ _ HT H R).
      + destruct (inner_some H L MD) as (i & _ & D). lia.
    - destruct (i_leaf n) eqn:L.
      + rewrite (predict_path HT x H O). rewrite (predict_leaf _ _ L). rewrite (A (i_class n)); [reflexivity|]. apply (C37_majority_class _ _ _ _ _ _ _ _ _ HT H R).
      + destruct (inner_some H L MD) as (i & V & D). destruct (C78_inner_nodes _ _ _ _ _ _ _ _ _ _ HT H L V) as (_ & _ & _ & _ & _ & _ & Ex & _).
        destruct (inner_var HT H L V) as (Li & _). destruct (K i Li) as (v & Hv & Ov). destruct (proj1 (Ex v) Ov) as [ch Hch].
        assert (O' : on_path (p ++ [(i, v)]) x = true).
        { unfold on_path in *. rewrite forallb_app, O. cbn [forallb fst snd]. unfold has_value. rewrite Hv, eqb_refl. reflexivity. }
        destruct (list_eq_dec eq_dec (reaching X y (p ++ [(i, v)])) []) as [Z|Z].
        * destruct (C37_unreached_node _ _ _ _ _ _ _ _ _ HT Hch Z) as (q & iv & par & E1 & E2 & E3 & E4 & _). apply app_inj_tail in E1. destruct E1 as [<- _].
          rewrite (predict_path HT x Hch O'), (predict_leaf _ _ E3), E4. rewrite (A (i_class par)); [reflexivity|]. apply (C37_majority_class _ _ _ _ _ _ _ _ _ HT E2 R).
        * apply (IH (p ++ [(i, v)]) ch); try assumption; [rewrite app_length; cbn; lia|]. intros k Hk. apply A. rewrite reaching_snoc in Hk.
          apply in_map_iff in Hk. destruct Hk as [xy [<- Hk]]. unfold having in Hk. apply filter_In in Hk. apply in_map, Hk.
  Qed.
End Classes.
