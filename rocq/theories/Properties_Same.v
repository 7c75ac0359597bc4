(** * C139: FDT and ID3 on categorical data *)
From Verif Require Import Prelude M_Fuzzy M_Discretize M_Rule M_FDT M_ID3 S_Rule S_FDT S_Crisp P_FuzzySet P_FuzzyVar P_Entropy P_Rule P_FDT P_FDT2 P_FDT3 P_FDT4 P_Crisp P_Crisp2 P_Metrics Properties_FDT Properties_Crisp S_ID3 P_ID3 P_ID3b P_ID3c Properties_ID3 Properties_ID3b S_Same P_Same P_Same2 P_Same3.
From Coq Require Import Reals Lra.
Open Scope string_scope.
Open Scope list_scope.
Open Scope Qc_scope.
Local Notation eqb := Prelude.eqb.

(** with one set per value of each column, the fuzzy information gain is the ordinary information gain of the rows
    satisfying the tests of the path *)
Theorem C139_gain : forall vars X y p a, column_variables X vars -> wide vars X -> List.length X = List.length y ->
  literals vars p -> (a < List.length vars)%nat -> reaching X y (tests vars p) <> [] ->
  info_gain vars X y p a = information_gain (reaching X y (tests vars p)) a.
Proof. intros vars X y p a CV W LE H La NE. exact (@gain_equal vars X y CV W LE p a H La NE). Qed.
Print Assumptions C139_gain.

(** hence an inner node of the fuzzy tree tests an unused column of largest information gain among its rows, that gain
    being positive and at least the threshold *)
Theorem C139_choice : forall cfg ord X y t p n, trained cfg ord X y t -> column_variables X (f_vars cfg) -> wide (f_vars cfg) X ->
  node_at t p n -> t_leaf n = false ->
  exists a, untested (f_vars cfg) p a /\ Forall (fun c => exists i, t_value c = Some (a, i)) (t_children n) /\
    let D := reaching X y (tests (f_vars cfg) p) in D <> [] /\
    (0 < information_gain D a)%R /\ (f_threshold cfg <= information_gain D a)%R /\
    forall b, untested (f_vars cfg) p b -> (information_gain D b <= information_gain D a)%R.
Proof.
  intros cfg ord X y t p n T CV W H L. destruct (trained_fitted T) as (LE & _).
  assert (LT : literals (f_vars cfg) p) by (intros l Hl; destruct (C24_paths _ _ _ _ _ _ _ T H) as (_ & _ & _ & Q); exact (Q l Hl)).
  destruct (C30_gain_optimal_choice _ _ _ _ _ _ _ T H L) as (a & v & Hv & Fc & U & G0 & G1 & NL & GM & _). exists a.
  assert (CR : S_FDT.reaching (f_vars cfg) X y p = map snd (reaching X y (tests (f_vars cfg) p))).
  { rewrite (@reaching_members (f_vars cfg) X y CV W LE). apply (@members_tests (f_vars cfg) X y CV). assumption. }
  assert (NE : reaching X y (tests (f_vars cfg) p) <> []).
  { intro E. apply NL. left. rewrite CR, E. intros c c' []. }
  split; [assumption|]. split; [assumption|]. cbv zeta. split; [assumption|].
  rewrite (@gain_equal (f_vars cfg) X y CV W LE p a LT (proj1 U) NE) in G0, G1, GM. split; [assumption|]. split; [assumption|].
  intros b Ub. rewrite <- (@gain_equal (f_vars cfg) X y CV W LE p b LT (proj1 Ub) NE). apply GM. assumption.
Qed.
Print Assumptions C139_choice.

(** without ties, every node of the fuzzy tree, read as tests on columns, is a node of the unpruned ID3 tree trained on
    the same table with the same limits: the fuzzy tree is the ID3 tree, cut where its rows are pure or where no gain
    reaches the threshold *)
Theorem C139_part_of_id3 : forall cfg ord icfg cls fts root X y t it,
  trained cfg ord X y t -> id3_trained icfg cls fts root X y it -> i_prunning icfg = false ->
  column_variables X (f_vars cfg) -> List.length (i_features icfg) = List.length (f_vars cfg) ->
  i_max_depth icfg = f_max_depth cfg -> (f_max_depth cfg <= Z.of_nat (List.length (f_vars cfg)))%Z -> i_min_examples icfg = f_min_examples cfg ->
  (forall p a b, untested (f_vars cfg) p a -> untested (f_vars cfg) p b -> (0 < info_gain (f_vars cfg) X y p a)%R ->
     info_gain (f_vars cfg) X y p a = info_gain (f_vars cfg) X y p b ->
     (forall c, untested (f_vars cfg) p c -> (info_gain (f_vars cfg) X y p c <= info_gain (f_vars cfg) X y p a)%R) -> a = b) ->
  forall p n, node_at t p n -> exists m, inode_at it (tests (f_vars cfg) p) m.
Proof. intros. eapply mirror; eassumption. Qed.
Print Assumptions C139_part_of_id3.

(** if moreover the fuzzy tree nowhere stopped for lack of gain, and ID3 counts the classes in increasing order, both
    trees classify every row of known values alike *)
Theorem C139_agree : forall cfg ord icfg cls fts root X y t it x,
  trained cfg ord X y t -> id3_trained icfg cls fts root X y it -> i_prunning icfg = false -> (forall z, cls z = zunique z) ->
  crisp_norm (f_tnorm cfg) ->
  column_variables X (f_vars cfg) -> List.length (i_features icfg) = List.length (f_vars cfg) ->
  i_max_depth icfg = f_max_depth cfg -> (f_max_depth cfg <= Z.of_nat (List.length (f_vars cfg)))%Z -> i_min_examples icfg = f_min_examples cfg ->
  (forall p a b, untested (f_vars cfg) p a -> untested (f_vars cfg) p b -> (0 < info_gain (f_vars cfg) X y p a)%R ->
     info_gain (f_vars cfg) X y p a = info_gain (f_vars cfg) X y p b ->
     (forall c, untested (f_vars cfg) p c -> (info_gain (f_vars cfg) X y p c <= info_gain (f_vars cfg) X y p a)%R) -> a = b) ->
  (forall p n, node_at t p n -> t_leaf n = true -> 0 < mass (f_vars cfg) X p -> limit_met cfg X y p) ->
  known icfg X x ->
  exists c, predict cfg t [x] = Ok [c] /\ id3_tree_predict it x = Ok (Some c).
Proof. intros. eapply agree; eassumption. Qed.
Print Assumptions C139_agree.

(** ** An instance: one column with the values 0 and 1 and classes 0 and 1 *)
Definition same_v : fvar := mkV "a" [FD "zero" (CNum 0); FD "one" (CNum 1)].
Definition same_cfg : fdt_cfg := mkFDT [same_v] (1 / 10000)%R 1 1 qmin AggVote.
Definition same_X : list (list cell) := xa [0; 1]%Z.
Definition same_y : list Z := [0; 1]%Z.
Definition same_tree : itree := ITree (Some 0%nat) false [ileaf' 0 1; ileaf' 1 1] [CNum 0; CNum 1] 0 (Some (2, 1)%nat) 0 0 2.
Lemma same_columns : column_variables same_X [same_v].
Proof.
  intros [|a] v Hv; [|destruct a; discriminate]. injection Hv as <-. exists [("zero", CNum 0); ("one", CNum 1)]. split; [reflexivity|].
  split; [repeat constructor; cbn; intuition discriminate|]. intro x. cbn [map snd In]. split.
  - intros [<-|[<-|[]]]; [exists [CNum (qz 0)]|exists [CNum (qz 1)]]; (split; [cbn; auto|reflexivity]).
  - intros [r [Hr Hx]]. cbn in Hr. destruct Hr as [<-|[<-|[]]]; injection Hx as <-; [left|right; left]; f_equal; qex.
Qed.
Lemma same_wide : wide [same_v] same_X.
Proof. intros r [<-|[<-|[]]]; cbn; lia. Qed.
Lemma same_gain : info_gain [same_v] same_X same_y [] 0 = 1%R.
Proof.
  unfold info_gain. cbn [nth_error fv_sets same_v List.length seq map app].
  assert (A0 : acts [same_v] same_X [] = [1; 1]) by reflexivity.
  assert (A1 : acts [same_v] same_X [(0, 0)%nat] = [1; 0]) by qex.
  assert (A2 : acts [same_v] same_X [(0, 1)%nat] = [0; 1]) by qex.
  unfold mass, same_y. rewrite A0, A1, A2. rewrite (@entropy_two 0 1) by discriminate. rewrite !entropy_pure by (auto; qlra).
  unfold rsum. cbn [fold_right]. unfold Rdiv. ring.
Qed.
Lemma same_trained : trained same_cfg same_order same_X same_y (one_tree same_cfg same_X same_y same_v).
Proof.
  assert (P : forall p s, Permutation (same_order p s) s) by (intros; apply Permutation_refl).
  assert (N : NoDup (map fs_name (fv_sets same_v))) by (repeat constructor; cbn; intuition discriminate).
  split; [assumption|]. split; [split; [repeat constructor; intros []|intros v [<-|[]]; assumption]|].
  split; [left; cbn; lra|].
  apply one_fit; try assumption; try reflexivity; try discriminate.
  - intros r Hr a v s Hv Hs. destruct a as [|a]; [|destruct a; discriminate]. injection Hv as <-.
    destruct Hr as [<-|[<-|[]]]; destruct Hs as [<-|[<-|[]]]; eexists; eexists; (split; reflexivity).
  - exact same_wide.
  - cbn. lra.
  - intros [H|[H|H]].
    + assert (0 = 1)%Z by (apply H; vm_compute; auto). discriminate.
    + vm_compute in H. discriminate.
    + vm_compute in H. apply H. reflexivity.
  - cbn [f_threshold f_vars same_cfg]. rewrite same_gain. lra.
Qed.
Lemma same_id3 : id3_trained (ex_id3 0 1 false) zunique ex_fts new_itree same_X same_y same_tree.
Proof.
  split; [apply ex_table; [reflexivity|discriminate]|]. split.
  - split; [|intros; apply Permutation_refl]. intro z. apply NoDup_Permutation; [apply zunique_NoDup|apply NoDup_nodup|].
    intro c. rewrite zunique_In, nodup_In. reflexivity.
  - ex_run [[CNum 0; CNum 1]].
Qed.
Example C139_instance : exists c, predict same_cfg (one_tree same_cfg same_X same_y same_v) [[CNum 1]] = Ok [c] /\ id3_tree_predict same_tree [CNum 1] = Ok (Some c).
Proof.
  apply (@C139_agree same_cfg same_order (ex_id3 0 1 false) zunique ex_fts new_itree same_X same_y (one_tree same_cfg same_X same_y same_v) same_tree [CNum 1]
    same_trained same_id3 eq_refl (fun z => eq_refl)); try reflexivity.
  - repeat split; qex.
  - exact same_columns.
  - intros p a b [Ha _] [Hb _] _ _ _. cbn in Ha, Hb. lia.
  - intros p n Hn Ln _. right. right. remember (one_tree same_cfg same_X same_y same_v) as t eqn:Et.
    inversion Hn as [|? ? ? q]; subst p n; [exfalso; subst; change (false = true) in Ln; discriminate Ln|]. cbn [List.length]. change (f_max_depth same_cfg) with 1%Z. lia.
  - intros [|i] Hi; [|cbn in Hi; lia]. exists (CNum 1). split; [reflexivity|]. exists [CNum 1]. split; [right; left; cbn; f_equal; f_equal; qex|reflexivity].
Qed.
