(** * ID3 of full depth on its training table *)
From Verif Require Import Prelude M_Fuzzy M_Discretize M_Rule M_FDT M_ID3 S_FDT S_Crisp P_FuzzySet P_FuzzyVar P_Entropy P_FBDT3 P_Metrics Properties_FDT S_ID3 P_ID3 P_ID3b P_ID3c Properties_ID3 Properties_ID3b S_Same P_Same P_Same2 S_Optimal.
Set Implicit Arguments.
Open Scope Qc_scope.
Local Notation eqb := Prelude.eqb.

(** classifiers constant on groups of rows: the majority of each group is best *)
Definition hits (f : list cell -> Z) (D : list (list cell * Z)) : nat := List.length (filter (fun d => Z.eqb (f (fst d)) (snd d)) D).
Lemma filter_len A (b : A -> bool) l : (List.length (filter b l) <= List.length l)%nat.
Proof. induction l as [|a l IH]; [reflexivity|]. cbn [filter]. destruct (b a); cbn [List.length]; lia. Qed.
Lemma hits_split f D (b : list cell * Z -> bool) : hits f D = (hits f (filter b D) + hits f (filter (fun d => negb (b d)) D))%nat.
Proof.
  unfold hits. induction D as [|d D IH]; [reflexivity|]. cbn [filter]. destruct (b d) eqn:B; cbn [negb filter]; destruct (Z.eqb _ _); cbn [List.length]; lia.
Qed.
Lemma hits_const f c D : (forall d, In d D -> f (fst d) = c) -> hits f D = times c D.
Proof.
  intro H. unfold hits, times. f_equal. apply filter_ext_in. intros d Hd. rewrite (H d Hd), Z.eqb_sym. reflexivity.
Qed.
Lemma majority_best (k : list cell -> list cell) f g D :
  (forall d d', In d D -> In d' D -> k (fst d) = k (fst d') -> f (fst d) = f (fst d') /\ g (fst d) = g (fst d')) ->
  (forall d c, In d D -> (times c (filter (fun e => eqb (k (fst e)) (k (fst d))) D) <= times (f (fst d)) (filter (fun e => eqb (k (fst e)) (k (fst d))) D))%nat) ->
  (hits g D <= hits f D)%nat.
Proof.
  remember (List.length D) as n eqn:En. revert D En. induction n as [n IH] using lt_wf_ind. intros D En C M.
  destruct D as [|d D']; [reflexivity|]. set (D := d :: D') in *. assert (Id : In d D) by (left; reflexivity).
  rewrite (hits_split g D (fun e => eqb (k (fst e)) (k (fst d)))), (hits_split f D (fun e => eqb (k (fst e)) (k (fst d)))).
  set (G := filter (fun e => eqb (k (fst e)) (k (fst d))) D). set (R := filter (fun e => negb (eqb (k (fst e)) (k (fst d)))) D).
  assert (HG : forall e, In e G -> f (fst e) = f (fst d) /\ g (fst e) = g (fst d)).
  { intros e He. apply filter_In in He. destruct He as [He Q]. apply eqb_eq in Q. apply C; assumption. }
  rewrite (@hits_const g (g (fst d)) G) by (intros e He; apply (HG e He)). rewrite (@hits_const f (f (fst d)) G) by (intros e He; apply (HG e He)).
  assert (Q1 := M d (g (fst d)) Id). fold G in Q1.
  assert (Q2 : (hits g R <= hits f R)%nat); [|lia].
  apply (IH (List.length R)); [|reflexivity| |].
  - rewrite En. unfold R, D. cbn [filter]. rewrite eqb_refl. cbn [negb List.length]. apply Nat.lt_succ_r, filter_len.
  - intros e e' He He'. apply filter_In in He, He'. apply C; [apply He|apply He'].
  - intros e c He. assert (ER : filter (fun e' => eqb (k (fst e')) (k (fst e))) R = filter (fun e' => eqb (k (fst e')) (k (fst e))) D).
    { apply filter_In in He. destruct He as [_ Ne]. unfold R. rewrite filter_filter. apply filter_ext. intro z.
      destruct (eqb (k (fst z)) (k (fst e))) eqn:Q; [|rewrite andb_false_r; reflexivity]. apply eqb_eq in Q. rewrite Q, Ne. reflexivity. }
    rewrite ER. apply M. apply filter_In in He. apply He.
Qed.

Section Full.
  Variables (cfg : id3_cfg) (cls : list Z -> list Z) (fts : list string -> list string) (root : itree) (X : list (list cell)) (y : list Z) (t : itree).
  Hypothesis HT : id3_trained cfg cls fts root X y t.
  Hypothesis PR : i_prunning cfg = false.
  Hypothesis MD : i_max_depth cfg = Z.of_nat (List.length (i_features cfg)).
  Hypothesis ME : (i_min_examples cfg <= 1)%Z.
  Notation n := (List.length (i_features cfg)).

  Lemma to_leaf x : known cfg X x -> forall m p nd, (n <= m + List.length p)%nat -> inode_at t p nd -> on_path p x = true ->
    exists p' nd', inode_at t p' nd' /\ on_path p' x = true /\ i_leaf nd' = true.
  Proof.
    intro K. assert (ML : (i_max_depth cfg <= Z.of_nat n)%Z) by lia. induction m as [|m IH]; intros p nd Lm H O; (destruct (i_leaf nd) eqn:L; [exists p, nd; auto|]).
    - destruct (inner_some HT H L ML) as (i & _ & D). lia.
    - destruct (inner_some HT H L ML) as (i & V & D). destruct (C78_inner_nodes _ _ _ _ _ _ _ _ _ _ HT H L V) as (_ & _ & _ & _ & _ & _ & Ex & _).
      destruct (inner_var HT H L V) as (Li & _). destruct (K i Li) as (v & Hv & Ov). destruct (proj1 (Ex v) Ov) as [ch Hch].
      apply (IH (p ++ [(i, v)]) ch); [rewrite app_length; cbn; lia|assumption|].
      unfold on_path in *. rewrite forallb_app, O. cbn [forallb fst snd]. unfold has_value. rewrite Hv, eqb_refl. reflexivity.
  Qed.
  Lemma training_known x : In x X -> known cfg X x.
  Proof.
    destruct HT as ((_ & _ & _ & _ & W & _) & _). intros Hx i Li. destruct (nth_error x i) as [v|] eqn:E.
    - exists v. split; [reflexivity|]. exists x. auto.
    - apply nth_error_None in E. assert (Q := W x Hx). lia.
  Qed.
  Lemma firstn_columns (x x' : list cell) k : (k <= List.length x)%nat -> (k <= List.length x')%nat ->
    (firstn k x = firstn k x' <-> forall i, (i < k)%nat -> nth_error x i = nth_error x' i).
  Proof.
    revert x x'. induction k as [|k IH]; intros [|a x] [|b x'] L L'; cbn [List.length] in *; try lia; cbn [firstn]; try (split; [intros _ i Hi; lia|reflexivity]).
    split.
    - intros E [|i] Hi; injection E as -> E; [reflexivity|]. cbn [nth_error]. apply IH; [lia|lia|assumption|lia].
    - intro H. f_equal; [assert (Q := H 0%nat ltac:(lia)); injection Q as ->; reflexivity|]. apply IH; [lia|lia|]. intros i Hi. exact (H (S i) ltac:(lia)).
  Qed.
  Lemma full_leaf x : In x X -> (exists c, In (x, c) (combine X y)) -> exists c, id3_tree_predict t x = Ok (Some c) /\
    forall c', (times c' (filter (fun e => eqb (firstn n (fst e)) (firstn n x)) (combine X y)) <= times c (filter (fun e => eqb (firstn n (fst e)) (firstn n x)) (combine X y)))%nat.
  Proof.
    intros Hx [c0 Hc]. destruct (@to_leaf x (@training_known x Hx) n [] t) as (p & nd & H & O & L); [cbn; lia|constructor|reflexivity|].
    assert (RN : reaching X y p <> []).
    { intro E. assert (I : In (x, c0) (reaching X y p)) by (apply filter_In; split; assumption). rewrite E in I. destruct I. }
    exists (i_class nd). split; [rewrite (predict_path HT x H O); apply predict_leaf; assumption|].
    assert (LP : (n <= List.length p)%nat).
    { destruct (leaf_limit HT PR H L RN) as [Q|Q]; [lia|]. destruct (reaching X y p); [congruence|cbn [List.length] in Q; lia]. }
    destruct (C78_paths _ _ _ _ _ _ _ _ _ HT H) as (ND & In_ & _ & _).
    assert (COV : forall i, (i < n)%nat -> In i (map fst p)).
    { assert (Q : incl (map fst p) (seq 0 n)) by (intros i Hi; apply in_map_iff in Hi; destruct Hi as [[j v] [<- Hi]]; apply in_seq; destruct (In_ _ _ Hi); cbn [fst]; lia).
      assert (Q2 : incl (seq 0 n) (map fst p)) by (apply NoDup_length_incl; [assumption|rewrite seq_length, map_length; assumption|assumption]).
      intros i Hi. apply Q2, in_seq. lia. }
    destruct HT as ((_ & _ & _ & _ & W & _) & _).
    assert (EQ : reaching X y p = filter (fun e => eqb (firstn n (fst e)) (firstn n x)) (combine X y)).
    { unfold reaching. apply filter_ext_in. intros [r c] Hr. cbn [fst]. apply in_combine_l in Hr. destruct (on_path p r) eqn:Or; symmetry.
      - apply eqb_eq. apply firstn_columns; [apply W; assumption|apply W; assumption|]. intros i Hi. assert (Q := COV i Hi). apply in_map_iff in Q. destruct Q as [[j v] [<- Hp]]. cbn [fst].
        unfold on_path in O, Or. rewrite forallb_forall in O, Or. assert (A := O _ Hp). assert (B := Or _ Hp). unfold has_value in A, B. cbn [fst snd] in A, B. apply eqb_eq in A, B. congruence.
      - destruct (eqb (firstn n r) (firstn n x)) eqn:E; [|reflexivity]. exfalso. apply eqb_eq in E. rewrite firstn_columns in E by (apply W; assumption).
        assert (Q : on_path p r = true); [|congruence]. unfold on_path in *. rewrite forallb_forall in O |- *. intros [j v] Hp. assert (A := O _ Hp). unfold has_value in A |- *. cbn [fst snd] in A |- *.
        rewrite E; [assumption|]. apply (In_ _ _ Hp). }
    rewrite <- EQ. apply (C37_majority_class _ _ _ _ _ _ _ _ _ HT H RN).
  Qed.

  Definition answer (x : list cell) : Z := match id3_tree_predict t x with Ok (Some c) => c | _ => 0%Z end.
  Lemma predict_answer x : In x X -> id3_tree_predict t x = Ok (Some (answer x)).
  Proof.
    intro Hx. assert (LE : List.length X = List.length y) by apply HT.
    assert (Q : exists c, In (x, c) (combine X y)).
    { apply In_nth_error in Hx. destruct Hx as [i Hi]. destruct (nth_error y i) as [c|] eqn:E.
      - exists c. eapply nth_error_In with (n := i). clear - Hi E. revert i X Hi E. induction y as [|a y' IH]; intros [|i] [|b X'] Hi E; try discriminate; cbn in *.
        + congruence.
        + apply IH; assumption.
      - apply nth_error_None in E. assert (nth_error X i <> None) as Z by congruence. apply nth_error_Some in Z. lia. }
    destruct (@full_leaf x Hx Q) as (c & E & _). unfold answer. rewrite E. reflexivity.
  Qed.
  Lemma score_hits : id3_score t X y = Ok (qn (correct answer X y) / qn (List.length y)).
  Proof.
    assert (LE : List.length X = List.length y) by apply HT. assert (NE : X <> []) by apply HT.
    unfold id3_score. rewrite LE, Nat.eqb_refl. cbn [negb orb]. destruct (Nat.eqb_spec (List.length y) 0) as [Z|_]; [destruct X; [congruence|rewrite Z in LE; discriminate]|].
    unfold id3_predict. destruct X as [|x0 X0] eqn:EX; [congruence|]. rewrite <- EX in *.
    rewrite (@mapM_pointwise _ _ (id3_tree_predict t) (fun x => Some (answer x)) X) by (intros x Hx; apply predict_answer; assumption). cbn [bind].
    do 4 f_equal. unfold correct, countb, zip. clear. revert y. induction X as [|x X' IH]; intros [|c y']; try reflexivity. cbn [map combine filter fst snd].
    replace (eqb (Some (answer x)) (Some c)) with (Z.eqb (answer x) c); [destruct (Z.eqb (answer x) c); cbn [List.length]; rewrite IH; reflexivity|].
    destruct (Z.eqb_spec (answer x) c) as [->|N]; symmetry; [apply eqb_refl|apply eqb_neq; congruence].
  Qed.
  Lemma answer_columns x x' : In x X -> In x' X -> firstn n x = firstn n x' -> answer x = answer x'.
  Proof.
    intros Hx Hx' E. destruct (@to_leaf x (@training_known x Hx) n [] t) as (p & nd & H & O & L); [cbn; lia|constructor|reflexivity|].
    assert (O' : on_path p x' = true).
    { destruct (C78_paths _ _ _ _ _ _ _ _ _ HT H) as (_ & In_ & _ & _). destruct HT as ((_ & _ & _ & _ & W & _) & _).
      rewrite firstn_columns in E by (apply W; assumption). unfold on_path in *. rewrite forallb_forall in O |- *. intros [j v] Hp. assert (A := O _ Hp). unfold has_value in A |- *. cbn [fst snd] in A |- *.
      rewrite <- E; [assumption|]. apply (In_ _ _ Hp). }
    unfold answer. rewrite (predict_path HT x H O), (predict_path HT x' H O'), !(predict_leaf _ _ L). reflexivity.
  Qed.
  Lemma optimal g : (correct (fun x => g (firstn n x)) X y <= correct answer X y)%nat.
  Proof.
    apply (@majority_best (firstn n) answer (fun x => g (firstn n x)) (combine X y)).
    - intros [x c] [x' c'] H H' E. cbn [fst] in *. split; [apply answer_columns; eauto using in_combine_l|rewrite E; reflexivity].
    - intros [x c] c' H. cbn [fst]. assert (Hx := in_combine_l _ _ _ _ H). destruct (@full_leaf x Hx (ex_intro _ c H)) as (a & E & M).
      unfold answer. rewrite E. apply M.
  Qed.
End Full.
