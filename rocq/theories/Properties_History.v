(** * Property C135: what a fuzzy tree knows after any number of fits *)
From Verif Require Import Prelude M_Fuzzy M_Discretize M_Rule M_FDT M_FBDT S_Rule S_FDT S_FBDT S_History P_FuzzySet P_FuzzyVar P_Entropy P_Rule P_FDT P_FDT2 P_FDT3 P_FDT4 P_FBDT P_FBDT2 P_FBDT3 P_FBDT7 P_History Properties_FDT Properties_FBDT Properties_FBDT5.
From Coq Require Import Reals Lra.
Open Scope string_scope.
Open Scope list_scope.
Open Scope Qc_scope.

(** ** the multiway tree *)
Lemma alone_facts cfg ord hist ts : alone cfg ord hist ts -> (forall t, In t ts -> t_leaf t = true -> t_children t = []) /\ (forall t, In t ts -> t_value t = None).
Proof.
  unfold alone. induction 1 as [|d t hist ts T F IH]; [split; intros ? []|]. destruct IH as [A B].
  split; intros u [<-|H]; [eapply trained_children; exact T|auto|apply (trained_root T)|auto].
Qed.
Lemma alone_last cfg ord hist ts pre last : alone cfg ord hist ts -> ts = pre ++ [last] -> t_value last = None.
Proof. intros A ->. apply (proj2 (alone_facts _ _ _ _ A)). apply in_or_app. right. left. reflexivity. Qed.

(** the last data set alone gives a leaf: the object answers as a new one would *)
Theorem C135_fdt_leaf_forgets : forall cfg ord hist pre last, alone cfg ord hist (pre ++ [last]) -> t_leaf last = true ->
  exists t, fits cfg ord hist fresh_root = Ok t /\
    (forall X, predict cfg t X = predict cfg last X) /\ (forall th, tree_rules t th = tree_rules last th).
Proof.
  intros cfg ord hist pre last A L. destruct (fits_shape A pre last eq_refl) as (t & E & P). exists t. split; [assumption|].
  exact (piled_leaf cfg P (alone_last _ _ _ _ _ _ A eq_refl) L).
Qed.
Print Assumptions C135_fdt_leaf_forgets.

(** the last data set alone gives a split: every split tree of the history votes, and the rules
    are theirs one after the other, also those of data sets that a leaf had hidden *)
Theorem C135_fdt_split_recalls : forall cfg ord hist pre last, alone cfg ord hist (pre ++ [last]) -> t_leaf last = false ->
  exists t, fits cfg ord hist fresh_root = Ok t /\
    (forall row c, row_support cfg t row c = pooled (f_voting cfg) (map (fun t => row_support cfg t row c) (splits (pre ++ [last])))) /\
    (forall th rss, Forall2 (fun t rs => tree_rules t th = Ok rs) (splits (pre ++ [last])) rss -> tree_rules t th = Ok (List.concat rss)).
Proof.
  intros cfg ord hist pre last A L. destruct (fits_shape A pre last eq_refl) as (t & E & P). destruct (alone_facts _ _ _ _ A) as [H V]. exists t. split; [assumption|].
  split; [intros row c; exact (piled_support cfg row c P H L)|intros th rss F; exact (piled_rules th P H V L F)].
Qed.
Print Assumptions C135_fdt_split_recalls.

(** with the same classes in all data sets, what is predicted *)
Theorem C135_fdt_prediction : forall cfg ord hist pre last classes X, alone cfg ord hist (pre ++ [last]) -> t_leaf last = false ->
  (forall v, In v (f_vars cfg) -> fv_sets v <> []) -> same_classes hist classes -> readable (f_vars cfg) X ->
  exists t ps, fits cfg ord hist fresh_root = Ok t /\ predict cfg t X = Ok ps /\
    Forall2 (fun row c => best_class classes (fun k => pooled (f_voting cfg) (map (fun t => row_support cfg t row k) (splits (pre ++ [last])))) c) X ps.
Proof.
  intros cfg ord hist pre last classes X A L Hs SC R. destruct (fits_shape A pre last eq_refl) as (t & E & P). destruct (alone_facts _ _ _ _ A) as [H V].
  assert (W : forall u, In u (pre ++ [last]) -> wf (f_vars cfg) (zunique classes) u).
  { clear - A Hs SC. unfold alone in A. induction A as [|d u hist ts T F IH]; [intros u []|]. intros w [<-|Hw].
    - destruct (trained_wf T Hs) as [W _]. rewrite <- (zunique_ext (snd d) classes (SC d (or_introl eq_refl))). exact W.
    - apply IH; [|exact Hw]. intros d' Hd. apply SC. right. exact Hd. }
  assert (I : In last (pre ++ [last])) by (apply in_or_app; right; left; reflexivity).
  assert (Wt := @piled_wf _ _ _ _ _ P H W I L). assert (Vt : t_value t = None) by apply P.
  assert (Ne : zunique classes <> []).
  { unfold alone in A. apply Forall2_app_inv_r in A. destruct A as (h1 & h2 & _ & A2 & ->). inversion A2 as [|d ? ? ? T _]; subst. destruct (trained_fitted T) as (_ & Hy & _).
    destruct (snd d) as [|c y] eqn:Ey; [congruence|]. intro Q. assert (K : In c (zunique classes)).
    { apply zunique_In. apply (SC d); [apply in_or_app; right; left; reflexivity|]. rewrite Ey. left. reflexivity. }
    rewrite Q in K. destruct K. }
  destruct (@predict_spec cfg t (zunique classes) X Wt Vt (zunique_sorted classes) (zunique_NoDup classes) Ne R) as [ps [Ep Fp]].
  exists t, ps. split; [assumption|]. split; [assumption|]. clear Ep R. induction Fp as [|row c X ps B F IH]; [constructor|]. constructor; [|assumption].
  destruct B as [B1 B2]. split; [apply zunique_In; exact B1|]. intros c' Hc'. rewrite <- !(piled_support cfg row _ P H L). apply B2. apply zunique_In. exact Hc'.
Qed.
Print Assumptions C135_fdt_prediction.

(** so the order of the calls does not matter, as long as the last data set is one that splits *)
Theorem C135_fdt_order : forall cfg ord hist hist' ts ts' pre last pre' last' classes X,
  alone cfg ord hist ts -> alone cfg ord hist' ts' -> Permutation hist hist' ->
  ts = pre ++ [last] -> ts' = pre' ++ [last'] -> t_leaf last = false -> t_leaf last' = false ->
  (forall v, In v (f_vars cfg) -> fv_sets v <> []) -> same_classes hist classes -> readable (f_vars cfg) X ->
  exists t t', fits cfg ord hist fresh_root = Ok t /\ fits cfg ord hist' fresh_root = Ok t' /\ predict cfg t X = predict cfg t' X.
Proof.
  intros cfg ord hist hist' ts ts' pre last pre' last' classes X A A' Pm -> -> L L' Hs SC R.
  destruct (C135_fdt_prediction cfg ord hist pre last classes X A L Hs SC R) as (t & ps & E1 & E2 & F).
  assert (SC' : same_classes hist' classes) by (intros d Hd; apply SC; eapply Permutation_in; [apply Permutation_sym; exact Pm|exact Hd]).
  destruct (C135_fdt_prediction cfg ord hist' pre' last' classes X A' L' Hs SC' R) as (t' & ps' & E1' & E2' & F').
  exists t, t'. split; [assumption|]. split; [assumption|]. rewrite E2, E2'. apply (f_equal (@Ok _)).
  assert (Pt : Permutation (pre ++ [last]) (pre' ++ [last'])).
  { assert (U : forall d u u', trained cfg ord (fst d) (snd d) u -> trained cfg ord (fst d) (snd d) u' -> u = u').
    { intros d u u' (_ & _ & _ & Q) (_ & _ & _ & Q'). rewrite Q in Q'. injection Q' as ->. reflexivity. }
    clear - A A' Pm U. unfold alone in *. destruct (Permutation_Forall2 Pm A) as (ts2 & P2 & F2). eapply Permutation_trans; [exact P2|].
    assert (E : ts2 = pre' ++ [last']); [|rewrite E; apply Permutation_refl]. clear - F2 A' U. revert A'. generalize (pre' ++ [last']). intros l F'. revert l F'.
    induction F2 as [|d u hist ts T F IH]; intros l F'; inversion F' as [|? u' ? l' T' F'']; subst; [reflexivity|]. f_equal; [exact (U d u u' T T')|apply IH; exact F'']. }
  assert (S : forall row k, pooled (f_voting cfg) (map (fun t => row_support cfg t row k) (splits (pre ++ [last]))) =
                            pooled (f_voting cfg) (map (fun t => row_support cfg t row k) (splits (pre' ++ [last'])))).
  { intros row k. apply pooled_perm. apply Permutation_map. unfold splits. clear - Pt. induction Pt as [|x l l' P IH|x y l|l1 l2 l3 P1 IH1 P2 IH2]; cbn [filter].
    - constructor.
    - destruct (negb (t_leaf x)); [constructor|]; assumption.
    - destruct (negb (t_leaf x)), (negb (t_leaf y)); try apply Permutation_refl. apply perm_swap.
    - eapply Permutation_trans; eassumption. }
  clear - F F' S. revert ps' F'. induction F as [|row c X ps B F IH]; intros ps' F'; inversion F' as [|? c' ? qs' B' F'']; subst; [reflexivity|]. f_equal; [|apply IH; assumption].
  apply (best_class_fun B). destruct B' as [B1 B2]. split; [assumption|]. intros c0 H0. rewrite !S. apply B2. exact H0.
Qed.
Print Assumptions C135_fdt_order.

(** ** the binary tree *)
Lemma balone_facts cfg psort hist ts : balone cfg psort hist ts -> (forall t, In t ts -> b_leaf t = true -> b_children t = []) /\ (forall t, In t ts -> b_value t = None).
Proof.
  unfold balone. induction 1 as [|d t hist ts T F IH]; [split; intros ? []|]. destruct IH as [A B].
  split; intros u [<-|H]; [eapply btrained_children; exact T|auto|apply (btrained_root T)|auto].
Qed.
Theorem C135_fbdt_leaf_forgets : forall cfg psort hist pre last, balone cfg psort hist (pre ++ [last]) -> b_leaf last = true ->
  exists t, bfits cfg psort hist fresh_broot = Ok t /\
    (forall X, bpredict cfg t X = bpredict cfg last X) /\ (forall th simp, btree_rules t th simp = btree_rules last th simp).
Proof.
  intros cfg psort hist pre last A L. destruct (bfits_shape A pre last eq_refl) as (t & E & P & _). exists t. split; [assumption|].
  refine (bpiled_leaf cfg P _ L). apply (proj2 (balone_facts _ _ _ _ A)). apply in_or_app. right. left. reflexivity.
Qed.
Print Assumptions C135_fbdt_leaf_forgets.

Theorem C135_fbdt_split_recalls : forall cfg psort hist pre last, balone cfg psort hist (pre ++ [last]) -> b_leaf last = false ->
  exists t, bfits cfg psort hist fresh_broot = Ok t /\
    (forall row c, brow_support cfg t row c = pooled (f_voting cfg) (map (fun t => brow_support cfg t row c) (bsplits (pre ++ [last])))) /\
    (forall th simp rss, Forall2 (fun t rs => btree_rules t th simp = Ok rs) (bsplits (pre ++ [last])) rss -> btree_rules t th simp = Ok (List.concat rss)).
Proof.
  intros cfg psort hist pre last A L. destruct (bfits_shape A pre last eq_refl) as (t & E & P & _). destruct (balone_facts _ _ _ _ A) as [H V]. exists t. split; [assumption|].
  split; [intros row c; exact (bpiled_support cfg row c P H L)|intros th simp rss F; exact (bpiled_rules th simp P H V L F)].
Qed.
Print Assumptions C135_fbdt_split_recalls.

Theorem C135_fbdt_prediction : forall cfg psort hist pre last classes X, balone cfg psort hist (pre ++ [last]) -> b_leaf last = false ->
  same_classes hist classes -> readable (f_vars cfg) X ->
  exists t ps, bfits cfg psort hist fresh_broot = Ok t /\ bpredict cfg t X = Ok ps /\
    Forall2 (fun row c => best_class classes (fun k => pooled (f_voting cfg) (map (fun t => brow_support cfg t row k) (bsplits (pre ++ [last])))) c) X ps.
Proof.
  intros cfg psort hist pre last classes X A L SC R. destruct (bfits_shape A pre last eq_refl) as (t & E & P & _). destruct (balone_facts _ _ _ _ A) as [H V].
  assert (W : forall u, In u (pre ++ [last]) -> bwf (f_vars cfg) (zunique classes) u).
  { clear - A SC. unfold balone in A. induction A as [|d u hist ts T F IH]; [intros u []|]. intros w [<-|Hw].
    - destruct (btrained_wf _ _ _ _ _ T) as [W _]. rewrite <- (zunique_ext (snd d) classes (SC d (or_introl eq_refl))). exact W.
    - apply IH; [|exact Hw]. intros d' Hd. apply SC. right. exact Hd. }
  assert (I : In last (pre ++ [last])) by (apply in_or_app; right; left; reflexivity).
  assert (Wt := @bpiled_wf _ _ _ _ _ P H W I L). assert (Vt : b_value t = None) by apply P.
  assert (Ne : zunique classes <> []).
  { unfold balone in A. apply Forall2_app_inv_r in A. destruct A as (h1 & h2 & _ & A2 & ->). inversion A2 as [|d ? ? ? T _]; subst.
    rewrite <- (zunique_ext (snd d) classes); [exact (btrained_y _ _ _ _ _ T)|]. apply SC. apply in_or_app. right. left. reflexivity. }
  destruct (@bpredict_spec cfg t (zunique classes) X Wt Vt (zunique_sorted classes) (zunique_NoDup classes) Ne R) as [ps [Ep Fp]].
  exists t, ps. split; [assumption|]. split; [assumption|]. clear Ep R. induction Fp as [|row c X ps B F IH]; [constructor|]. constructor; [|assumption].
  destruct B as [B1 B2]. split; [apply zunique_In; exact B1|]. intros c' Hc'. rewrite <- !(bpiled_support cfg row _ P H L). apply B2. apply zunique_In. exact Hc'.
Qed.
Print Assumptions C135_fbdt_prediction.

Theorem C135_fbdt_order : forall cfg psort hist hist' ts ts' pre last pre' last' classes X,
  balone cfg psort hist ts -> balone cfg psort hist' ts' -> Permutation hist hist' ->
  ts = pre ++ [last] -> ts' = pre' ++ [last'] -> b_leaf last = false -> b_leaf last' = false ->
  same_classes hist classes -> readable (f_vars cfg) X ->
  exists t t', bfits cfg psort hist fresh_broot = Ok t /\ bfits cfg psort hist' fresh_broot = Ok t' /\ bpredict cfg t X = bpredict cfg t' X.
Proof.
  intros cfg psort hist hist' ts ts' pre last pre' last' classes X A A' Pm -> -> L L' SC R.
  destruct (C135_fbdt_prediction cfg psort hist pre last classes X A L SC R) as (t & ps & E1 & E2 & F).
  assert (SC' : same_classes hist' classes) by (intros d Hd; apply SC; eapply Permutation_in; [apply Permutation_sym; exact Pm|exact Hd]).
  destruct (C135_fbdt_prediction cfg psort hist' pre' last' classes X A' L' SC' R) as (t' & ps' & E1' & E2' & F').
  exists t, t'. split; [assumption|]. split; [assumption|]. rewrite E2, E2'. apply (f_equal (@Ok _)).
  assert (Pt : Permutation (pre ++ [last]) (pre' ++ [last'])).
  { assert (U : forall d u u', btrained cfg psort (fst d) (snd d) u -> btrained cfg psort (fst d) (snd d) u' -> u = u').
    { intros d u u' (_ & _ & h & Q) (_ & _ & h' & Q'). rewrite Q in Q'. injection Q' as _ ->. reflexivity. }
    clear - A A' Pm U. unfold balone in *. destruct (Permutation_Forall2 Pm A) as (ts2 & P2 & F2). eapply Permutation_trans; [exact P2|].
    assert (E : ts2 = pre' ++ [last']); [|rewrite E; apply Permutation_refl]. clear - F2 A' U. revert A'. generalize (pre' ++ [last']). intros l F'. revert l F'.
    induction F2 as [|d u hist ts T F IH]; intros l F'; inversion F' as [|? u' ? l' T' F'']; subst; [reflexivity|]. f_equal; [exact (U d u u' T T')|apply IH; exact F'']. }
  assert (S : forall row k, pooled (f_voting cfg) (map (fun t => brow_support cfg t row k) (bsplits (pre ++ [last]))) =
                            pooled (f_voting cfg) (map (fun t => brow_support cfg t row k) (bsplits (pre' ++ [last'])))).
  { intros row k. apply pooled_perm. apply Permutation_map. unfold bsplits. clear - Pt. induction Pt as [|x l l' P IH|x y l|l1 l2 l3 P1 IH1 P2 IH2]; cbn [filter].
    - constructor.
    - destruct (negb (b_leaf x)); [constructor|]; assumption.
    - destruct (negb (b_leaf x)), (negb (b_leaf y)); try apply Permutation_refl. apply perm_swap.
    - eapply Permutation_trans; eassumption. }
  clear - F F' S. revert ps' F'. induction F as [|row c X ps B F IH]; intros ps' F'; inversion F' as [|? c' ? qs' B' F'']; subst; [reflexivity|]. f_equal; [|apply IH; assumption].
  apply (best_class_fun B). destruct B' as [B1 B2]. split; [assumption|]. intros c0 H0. rewrite !S. apply B2. exact H0.
Qed.
Print Assumptions C135_fbdt_order.

(** ** a concrete history: split, leaf, split with the labels swapped *)
Definition h_leaf : list Z := [1; 1]%Z.
Lemma h_trained vt : exists t, trained (ex_cfg vt) same_order ex_X h_leaf t /\ t_leaf t = true.
Proof.
  assert (P : forall p s, Permutation (same_order p s) s) by (intros; apply Permutation_refl).
  assert (N : NoDup (map fs_name (fv_sets (ex_v "x")))) by (repeat constructor; cbn; [intros [H|[]]; discriminate|intros []]).
  assert (DN : distinct_names (f_vars (ex_cfg vt))) by (split; [repeat constructor; intros []|intros v [<-|[]]; assumption]).
  destruct (ex_readable "x" ex_X) as [R W]. { intros row [<-|[<-|[]]]; eauto. }
  destruct (C25_training_total (ex_cfg vt) same_order ex_X h_leaf fresh_root) as [t E]; try assumption; try reflexivity; try discriminate; [cbn; lra|].
  assert (T : trained (ex_cfg vt) same_order ex_X h_leaf t) by (split; [assumption|split; [assumption|split; [left; cbn; lra|assumption]]]).
  exists t. split; [assumption|]. destruct (t_leaf t) eqn:L; [reflexivity|]. exfalso.
  destruct (node_inner T (at_self t) L) as (a & v & _ & Ch & St & _).
  assert (Q : limit_met (ex_cfg vt) ex_X h_leaf []) by (left; intros c c' Hc Hc'; vm_compute in Hc, Hc'; intuition congruence).
  assert (S1 : stops (ex_cfg vt) ex_X h_leaf [] (info_gain (f_vars (ex_cfg vt)) ex_X h_leaf [] a) (plen []) = true) by (apply (proj2 (stops_limit T [] _)); left; exact Q).
  rewrite S1 in St. discriminate.
Qed.
Example C135_instance : exists hist pre last, List.length hist = 3%nat /\ alone (ex_cfg AggVote) same_order hist (pre ++ [last]) /\ t_leaf last = false /\
  map t_leaf pre = [false; true] /\ List.length (splits (pre ++ [last])) = 2%nat.
Proof.
  destruct (h_trained AggVote) as (t & T & L).
  exists [(ex_X, [1; 0]%Z); (ex_X, h_leaf); (ex_X, [0; 1]%Z)], [one_tree (ex_cfg AggVote) ex_X [1; 0]%Z (ex_v "x"); t], (one_tree (ex_cfg AggVote) ex_X [0; 1]%Z (ex_v "x")).
  split; [reflexivity|]. split; [constructor; [apply ex_fit; auto|constructor; [exact T|constructor; [apply ex_fit; auto|constructor]]]|]. split; [reflexivity|]. split; [cbn; rewrite L; reflexivity|].
  cbn. rewrite L. reflexivity.
Qed.
Example C135_binary_instance : balone (ex_cfg AggVote) no_sort [(ex_X, ex_y); (ex_X, sw_y)] ([ex_btree] ++ [sw_btree]) /\ b_leaf sw_btree = false /\
  same_classes [(ex_X, ex_y); (ex_X, sw_y)] [0; 1]%Z.
Proof.
  split; [constructor; [apply ex_btrained|constructor; [apply sw_btrained|constructor]]|]. split; [reflexivity|].
  intros d [<-|[<-|[]]] c; cbn; intuition.
Qed.
