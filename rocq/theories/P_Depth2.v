(** * Proofs for C141: the score of ID3 on its training table and the depth *)
From Verif Require Import Prelude M_Fuzzy M_Discretize M_Rule M_FDT M_ID3 S_FDT S_Crisp P_FuzzySet P_FuzzyVar P_Entropy P_FBDT3 P_Metrics Properties_FDT S_ID3 P_ID3 P_ID3b P_ID3c Properties_ID3 Properties_ID3b S_Same P_Same P_Same2 S_Optimal P_Optimal Properties_Optimal S_Depth P_Depth.
Set Implicit Arguments.
Open Scope list_scope.
Open Scope Qc_scope.
Local Notation eqb := Prelude.eqb.

Lemma filter_false A (l : list A) : filter (fun _ => false) l = [].
Proof. induction l; [reflexivity|assumption]. Qed.
Lemma hits_groups (k : list cell -> option cell) f g D :
  (forall v, (hits f (filter (fun e => eqb (k (fst e)) v) D) <= hits g (filter (fun e => eqb (k (fst e)) v) D))%nat) -> (hits f D <= hits g D)%nat.
Proof.
  remember (List.length D) as n eqn:En. revert D En. induction n as [n IH] using lt_wf_ind. intros D En H.
  destruct D as [|d D']; [reflexivity|]. set (D := d :: D') in *.
  rewrite (hits_split f D (fun e => eqb (k (fst e)) (k (fst d)))), (hits_split g D (fun e => eqb (k (fst e)) (k (fst d)))).
  assert (Q1 := H (k (fst d))). set (R := filter (fun e => negb (eqb (k (fst e)) (k (fst d)))) D).
  assert (Q2 : (hits f R <= hits g R)%nat); [|lia].
  apply (IH (List.length R)); [|reflexivity|].
  - rewrite En. unfold R, D. cbn [filter]. rewrite eqb_refl. cbn [negb List.length]. apply Nat.lt_succ_r, filter_len.
  - intro v. unfold R. rewrite filter_filter. destruct (eqb v (k (fst d))) eqn:Ev.
    + apply eqb_eq in Ev. subst v. rewrite (filter_ext _ (fun _ => false)); [|intro e; destruct (eqb _ _); reflexivity]. rewrite filter_false. reflexivity.
    + rewrite (filter_ext _ (fun e => eqb (k (fst e)) v)); [apply H|]. intro e. destruct (eqb (k (fst e)) v) eqn:E; [|apply andb_false_r]. apply eqb_eq in E. rewrite E, Ev. reflexivity.
Qed.
Lemma hits_same f g D : (forall d, In d D -> f (fst d) = g (fst d)) -> hits f D = hits g D.
Proof. intro H. unfold hits. f_equal. apply filter_ext_in. intros d Hd. rewrite (H d Hd). reflexivity. Qed.
Lemma reaching_snoc X y p i v : reaching X y (p ++ [(i, v)]) = filter (fun e => eqb (nth_error (fst e) i) (Some v)) (reaching X y p).
Proof.
  unfold reaching. rewrite filter_filter. apply filter_ext. intros [x c]. cbn [fst]. unfold on_path. rewrite forallb_app. cbn [forallb fst snd]. unfold has_value at 2. rewrite andb_true_r. reflexivity.
Qed.

Section Level.
  Variables (cfg : id3_cfg) (cls : list Z -> list Z) (fts : list string -> list string) (root : itree) (X : list (list cell)) (y : list Z) (t : itree).
  Hypothesis HT : id3_trained cfg cls fts root X y t.
  Hypothesis ML : (i_max_depth cfg <= Z.of_nat (List.length (i_features cfg)))%Z.
  Lemma shallow_answer x : In x X -> id3_tree_predict t x = Ok (Some (answer t x)).
  Proof.
    intro Hx. destruct (C36_known_rows_classified_shallow _ _ _ _ _ _ _ _ HT ML (training_known HT x Hx)) as (c & E & _). unfold answer. rewrite E. reflexivity.
  Qed.
  Lemma shallow_score : id3_score t X y = Ok (qn (hits (answer t) (combine X y)) / qn (List.length y)).
  Proof.
    assert (LE : List.length X = List.length y) by apply HT. assert (NE : X <> []) by apply HT.
    unfold id3_score. rewrite LE, Nat.eqb_refl. cbn [negb orb]. destruct (Nat.eqb_spec (List.length y) 0) as [Z|_]; [destruct X; [congruence|rewrite Z in LE; discriminate]|].
    unfold id3_predict. destruct X as [|x0 X0] eqn:EX; [congruence|]. rewrite <- EX in *.
    rewrite (@mapM_pointwise _ _ (id3_tree_predict t) (fun x => Some (answer t x)) X) by (intros x Hx; apply shallow_answer; assumption). cbn [bind].
    do 4 f_equal. unfold hits, countb, zip. clear. revert y. induction X as [|x X' IH]; intros [|c y']; try reflexivity. cbn [map combine filter fst snd].
    replace (eqb (Some (answer t x)) (Some c)) with (Z.eqb (answer t x) c); [destruct (Z.eqb (answer t x) c); cbn [List.length]; rewrite IH; reflexivity|].
    destruct (Z.eqb_spec (answer t x) c) as [->|N]; symmetry; [apply eqb_refl|apply eqb_neq; congruence].
  Qed.
  Lemma answer_at_leaf p nd d : inode_at t p nd -> i_leaf nd = true -> In d (reaching X y p) -> answer t (fst d) = i_class nd.
  Proof.
    intros H L Hd. apply filter_In in Hd. destruct Hd as [_ O]. unfold answer. rewrite (predict_path HT (fst d) H O), (predict_leaf nd (fst d) L). reflexivity.
  Qed.
  Lemma no_rows p i v nd : inode_at t p nd -> i_leaf nd = false -> i_var nd = Some i -> ~ occurs X i v -> reaching X y (p ++ [(i, v)]) = [].
  Proof.
    intros H L V N. rewrite reaching_snoc. destruct (filter _ _) as [|[x c] r] eqn:E; [reflexivity|exfalso]. assert (I : In (x, c) ((x, c) :: r)) by (left; reflexivity). rewrite <- E in I.
    apply filter_In in I. destruct I as [I Q]. apply filter_In in I. destruct I as [I _]. apply eqb_eq in Q. cbn [fst] in Q. apply N. exists x. split; [exact (in_combine_l _ _ _ _ I)|exact Q].
  Qed.
  Lemma split_groups p nd i f g : inode_at t p nd -> i_leaf nd = false -> i_var nd = Some i ->
    (forall v ch, inode_at t (p ++ [(i, v)]) ch -> (hits f (reaching X y (p ++ [(i, v)])) <= hits g (reaching X y (p ++ [(i, v)])))%nat) ->
    (hits f (reaching X y p) <= hits g (reaching X y p))%nat.
  Proof.
    intros H L V G. destruct (C78_inner_nodes _ _ _ _ _ _ _ _ _ _ HT H L V) as (_ & _ & _ & _ & _ & _ & Ex & _).
    destruct (inner_var HT H L V) as (Li & _). destruct HT as ((_ & _ & _ & _ & W & _) & _).
    apply (@hits_groups (fun x => nth_error x i)). intros [v|].
    - rewrite <- reaching_snoc. assert (D : occurs X i v \/ ~ occurs X i v).
      { destruct (in_dec eq_dec (Some v) (map (fun x => nth_error x i) X)) as [I|I].
        - left. apply in_map_iff in I. destruct I as (x & Q & Hx). exists x. auto.
        - right. intros (x & Hx & Q). apply I. rewrite <- Q. apply (in_map (fun x => nth_error x i)). assumption. }
      destruct D as [O|O]; [destruct (proj1 (Ex v) O) as [ch Hch]; exact (G v ch Hch)|]. rewrite (no_rows H L V O). reflexivity.
    - rewrite (filter_ext_in _ (fun _ => false)); [rewrite filter_false; reflexivity|]. intros [x c] Hx. apply filter_In in Hx. destruct Hx as [Hx _]. apply in_combine_l in Hx. cbn [fst].
      apply eqb_neq. intro Q. apply nth_error_None in Q. assert (Q2 := W x Hx). lia.
  Qed.
  Lemma class_hits c : forall m p nd, (List.length (i_features cfg) <= m + List.length p)%nat -> inode_at t p nd ->
    (hits (fun _ => c) (reaching X y p) <= hits (answer t) (reaching X y p))%nat.
  Proof.
    assert (LEAF : forall p nd, inode_at t p nd -> i_leaf nd = true -> (hits (fun _ => c) (reaching X y p) <= hits (answer t) (reaching X y p))%nat).
    { intros p nd H L. rewrite (@hits_const (answer t) (i_class nd) (reaching X y p)) by (intros d Hd; exact (answer_at_leaf d H L Hd)). rewrite (@hits_const (fun _ => c) c) by reflexivity.
      destruct (reaching X y p) as [|d D] eqn:E; [reflexivity|]. rewrite <- E. apply (C37_majority_class _ _ _ _ _ _ _ _ _ HT H). rewrite E. discriminate. }
    induction m as [|m IH]; intros p nd Lm H; (destruct (i_leaf nd) eqn:L; [exact (LEAF p nd H L)|]); destruct (inner_some HT H L ML) as (i & V & D).
    - lia.
    - apply (@split_groups p nd i _ _ H L V). intros v ch Hch. apply (IH _ ch); [rewrite app_length; cbn; lia|assumption].
  Qed.
End Level.

Lemma inner_at A (n : nat) (l l' : list A) R j b : Forall2 R l l' -> nth_error l' j = Some b -> exists a : A, nth_error l j = Some a /\ R a b.
Proof. intro F. revert j. induction F as [|x z l l' H F IH]; intros [|j] E; try discriminate; cbn in *; [injection E as <-; eauto|apply IH; assumption]. Qed.
Lemma cut_hits cfg cfg' cls fts root root' X y t t' : id3_trained cfg cls fts root X y t -> id3_trained cfg' cls fts root' X y t' ->
  (i_max_depth cfg' <= Z.of_nat (List.length (i_features cfg')))%Z ->
  forall k p nd nd', inode_at t p nd -> inode_at t' p nd' -> id3_cut k nd nd' ->
  (hits (answer t) (reaching X y p) <= hits (answer t') (reaching X y p))%nat.
Proof.
  intros HT HT' ML.
  assert (LEAF : forall p nd nd', inode_at t p nd -> inode_at t' p nd' -> i_leaf nd = true -> (hits (answer t) (reaching X y p) <= hits (answer t') (reaching X y p))%nat).
  { intros p nd nd' H H' L. assert (Q := @class_hits _ _ _ _ _ _ _ HT' ML (i_class nd) (List.length (i_features cfg')) p nd' ltac:(lia) H').
    rewrite (@hits_same (answer t) (fun _ => i_class nd)); [assumption|]. intros d Hd. exact (answer_at_leaf HT d H L Hd). }
  induction k as [|k IH]; intros p nd nd' H H' C; inversion C; subst; try (apply (LEAF p _ _ H H'); reflexivity).
  match goal with F : Forall2 (id3_cut k) ?c1 ?c2 |- _ => rename F into FC; rename c1 into l; rename c2 into l' end.
  destruct (inner_some HT' H' eq_refl ML) as (i & V & _). apply (@split_groups _ _ _ _ _ _ _ HT' p _ i _ _ H' eq_refl V). intros v ch' Hch'.
  destruct (inode_split _ _ Hch') as (par & Hp & Hc).
  destruct (C78_inner_nodes _ _ _ _ _ _ _ _ _ _ HT' H' eq_refl V) as (_ & _ & _ & _ & _ & _ & Ex & Un).
  assert (O : occurs X i v) by (apply Ex; eauto). destruct (C78_inner_nodes _ _ _ _ _ _ _ _ _ _ HT' H' eq_refl V) as (_ & _ & _ & _ & Sp & Ln & _ & _).
  apply Sp in O. apply In_nth_error in O. destruct O as [j Hj]. cbn [i_splits i_children i_var] in *.
  destruct (nth_error l' j) as [c'|] eqn:Ec'; [|apply nth_error_None in Ec'; assert (nth_error sp j <> None) as Z by congruence; apply nth_error_Some in Z; lia].
  destruct (@inner_at _ 0 _ _ _ _ _ FC Ec') as (c0 & Ec & Cc).
  apply (IH (p ++ [(i, v)]) c0 c'); [| |exact Cc].
  - apply (inode_app H). eapply iat_child with (j := j); [reflexivity|exact V|exact Hj|exact Ec|constructor].
  - apply (inode_app H'). eapply iat_child with (j := j); [reflexivity|exact V|exact Hj|exact Ec'|constructor].
Qed.
