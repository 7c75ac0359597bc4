(** * Properties C23-C30, C35, C40: fuzzy decision trees *)
From Verif Require Import Prelude M_Fuzzy M_Discretize M_Rule M_FDT S_Rule S_FDT P_FuzzySet P_FuzzyVar P_Entropy P_Rule P_FDT P_FDT2 P_FDT3 P_FDT4.
From Coq Require Import Reals Lra.
Open Scope string_scope.
Open Scope list_scope.
Open Scope Qc_scope.

(** Examples: one variable with two triangles on [0,10], rows 0 and 10 of classes 1 and 0. *)
Definition ex_v (n : string) : fvar := mkV n [FC (mkC "low" 0 0 (qz 10) false); FC (mkC "high" 0 (qz 10) (qz 10) false)].
Definition ex_X : list (list cell) := [[CNum 0]; [CNum (qz 10)]].
Definition ex_X2 : list (list cell) := [[CNum 0; CNum 0]; [CNum (qz 10); CNum (qz 10)]].
Definition ex_y : list Z := [1; 0]%Z.
Definition ex_cfg (vt : voting) : fdt_cfg := mkFDT [ex_v "x"] (1 / 10000)%R 10 1 qmin vt.
Definition same_order : list (nat * nat) -> list string -> list string := fun _ s => s.

Lemma ex_readable n X : (forall row, In row X -> exists x, row = [CNum x]) -> readable [ex_v n] X /\ wide [ex_v n] X.
Proof.
  intro H. split.
  - intros row Hr a v s Hv Hs. destruct (H row Hr) as [x ->]. destruct a as [|a]; [|destruct a; discriminate]. injection Hv as <-.
    exists (CNum x). destruct Hs as [<-|[<-|[]]]; eexists; (split; [reflexivity|reflexivity]).
  - intros row Hr. destruct (H row Hr) as [x ->]. cbn. lia.
Qed.
Lemma ex_gain a b : a <> b -> info_gain [ex_v "x"] ex_X [a; b] [] 0 = 1%R.
Proof.
  intro D. unfold info_gain. cbn [nth_error fv_sets ex_v List.length seq map app].
  assert (A0 : acts [ex_v "x"] ex_X [] = [1; 1]) by reflexivity.
  assert (A1 : acts [ex_v "x"] ex_X [(0, 0)%nat] = [1; 0]) by qex.
  assert (A2 : acts [ex_v "x"] ex_X [(0, 1)%nat] = [0; 1]) by qex.
  rewrite A0, A1, A2, (entropy_two D). rewrite !entropy_pure by (auto; qlra).
  unfold rsum. cbn [fold_right]. unfold Rdiv. ring.
Qed.
Lemma ex_no_limit vt y : y = [1; 0]%Z \/ y = [0; 1]%Z -> ~ limit_met (ex_cfg vt) ex_X y [].
Proof.
  intros Hy [H|[H|H]].
  - assert (1 = 0)%Z by (apply H; destruct Hy as [-> | ->]; vm_compute; auto). discriminate.
  - destruct Hy as [-> | ->]; vm_compute in H; discriminate.
  - vm_compute in H. apply H. reflexivity.
Qed.
Lemma ex_fit vt y : y = [1; 0]%Z \/ y = [0; 1]%Z -> trained (ex_cfg vt) same_order ex_X y (one_tree (ex_cfg vt) ex_X y (ex_v "x")).
Proof.
  intro Hy. assert (P : forall p s, Permutation (same_order p s) s) by (intros; apply Permutation_refl).
  assert (N : NoDup (map fs_name (fv_sets (ex_v "x")))) by (repeat constructor; cbn; [intros [H|[]]; discriminate|intros []]).
  split; [assumption|]. split; [split; [repeat constructor; intros []|intros v [<-|[]]; assumption]|].
  split; [left; cbn; lra|].
  destruct (ex_readable "x" ex_X) as [R W]. { intros row [<-|[<-|[]]]; eauto. }
  apply one_fit; try assumption; try reflexivity.
  - destruct Hy as [-> | ->]; reflexivity.
  - destruct Hy as [-> | ->]; discriminate.
  - cbn. lra.
  - apply ex_no_limit. assumption.
  - cbn [f_threshold ex_cfg]. destruct Hy as [-> | ->]; rewrite ex_gain by discriminate; lra.
Qed.
Lemma ex_sets vt : forall v, In v (f_vars (ex_cfg vt)) -> fv_sets v <> [].
Proof. intros v [<-|[]]. discriminate. Qed.

(** ** C23 *)
Theorem C23_leaf_distribution : forall cfg ord X y t p n,
  trained cfg ord X y t -> node_at t p n -> t_leaf n = true ->
  exists cv q, t_class n = Some cv /\ map fst cv = zunique y /\
    (forall c w, In (c, w) cv -> 0 <= w /\ w <= 1 /\ w = share (f_vars cfg) X y q c) /\
    qsum (map snd cv) = 1 /\
    ((0 < mass (f_vars cfg) X p /\ q = p) \/
     (mass (f_vars cfg) X p = 0 /\ 0 < mass (f_vars cfg) X q /\ exists l, p = q ++ [l])).
Proof.
  intros cfg ord X y t p n T H L. destruct (node_leaf_class T H L) as (q & E & M & C). destruct (trained_fitted T) as (HL & _).
  destruct (@class_dist_spec cfg X y HL q M) as (A & B & D). exists (class_dist cfg X y q), q.
  repeat (split; [assumption|]). destruct C as [C|[C1 C2]]; auto.
Qed.
Print Assumptions C23_leaf_distribution.

(** hypotheses met by a tree whose "low" leaf holds class 1 only *)
Example C23_instance : exists n, trained (ex_cfg AggVote) same_order ex_X ex_y (one_tree (ex_cfg AggVote) ex_X ex_y (ex_v "x")) /\
  node_at (one_tree (ex_cfg AggVote) ex_X ex_y (ex_v "x")) [(0, 0)%nat] n /\ t_leaf n = true /\ leaf_weight n 1 = 1 /\ leaf_weight n 0 = 0.
Proof.
  eexists. split; [apply ex_fit; auto|]. split; [|split; [|split]].
  - eapply at_child; [reflexivity|left; reflexivity|reflexivity|apply at_self].
  - reflexivity.
  - qex.
  - qex.
Qed.

(** ** C24 *)
Theorem C24_paths : forall cfg ord X y t p n, trained cfg ord X y t -> node_at t p n ->
  NoDup (map fst p) /\ (List.length p <= List.length (f_vars cfg))%nat /\
  (Z.of_nat (List.length p) <= Z.max 0 (f_max_depth cfg))%Z /\
  (forall l, In l p -> exists v s, nth_error (f_vars cfg) (fst l) = Some v /\ nth_error (fv_sets v) (snd l) = Some s).
Proof.
  intros cfg ord X y t p n T H. destruct (node_path T H) as (A & B & C). split; [assumption|]. split; [|split; assumption].
  rewrite <- (map_length fst p). rewrite <- (seq_length (List.length (f_vars cfg)) 0). apply NoDup_incl_length; [assumption|].
  intros a Ha. apply in_map_iff in Ha. destruct Ha as [l [<- Hl]]. destruct (B l Hl) as (v & s & Hv & _). apply in_seq. split; [lia|]. apply nth_error_Some. congruence.
Qed.
Print Assumptions C24_paths.

Theorem C24_children : forall cfg ord X y t p n, trained cfg ord X y t -> node_at t p n -> t_leaf n = false ->
  exists a v, nth_error (f_vars cfg) a = Some v /\ ~ In a (map fst p) /\
    map t_value (t_children n) = map (fun i => Some (a, i)) (seq 0 (List.length (fv_sets v))) /\
    Forall (fun c => t_var c = Some v) (t_children n).
Proof.
  intros cfg ord X y t p n T H L. destruct (node_inner T H L) as (a & v & Hv & Ch & _ & _ & A & B). exists a, v.
  destruct (chosen_max T Ch) as ((_ & U) & _). auto.
Qed.
Print Assumptions C24_children.

Example C24_instance : map t_value (t_children (one_tree (ex_cfg AggVote) ex_X ex_y (ex_v "x"))) = [Some (0, 0)%nat; Some (0, 1)%nat] /\
  t_leaf (one_tree (ex_cfg AggVote) ex_X ex_y (ex_v "x")) = false.
Proof. split; reflexivity. Qed.

(** ** C25 *)
Theorem C25_training_total : forall cfg ord X y root,
  (forall p s, Permutation (ord p s) s) -> distinct_names (f_vars cfg) ->
  List.length X = List.length y -> y <> [] -> readable (f_vars cfg) X -> wide (f_vars cfg) X ->
  (0 < f_threshold cfg)%R -> exists t, fit cfg ord root X y = Ok t.
Proof.
  intros cfg ord X y root Ho Hn HL Hy HR HW Hth.
  destruct (@fit_total cfg ord X y Ho Hn HL Hy HR HW (or_introl Hth) root) as [H|[[q (_ & _ & Q & _)] _]]; [assumption|exfalso; lra].
Qed.
Print Assumptions C25_training_total.

(** with a non-positive threshold the only exception is KeyError, and it needs an impure node
    above the limits where no untested feature has positive gain ... *)
Theorem C25_nonpositive_threshold : forall cfg ord X y root,
  (forall p s, Permutation (ord p s) s) -> distinct_names (f_vars cfg) ->
  List.length X = List.length y -> y <> [] -> readable (f_vars cfg) X -> wide (f_vars cfg) X ->
  ~ In ""%string (map fv_name (f_vars cfg)) ->
  (exists t, fit cfg ord root X y = Ok t) \/
  (fit cfg ord root X y = Err KeyError /\ (f_threshold cfg <= 0)%R /\
   exists p, 0 < mass (f_vars cfg) X p /\ ~ limit_met cfg X y p /\
     forall a, untested (f_vars cfg) p a -> (info_gain (f_vars cfg) X y p a <= 0)%R).
Proof.
  intros cfg ord X y root Ho Hn HL Hy HR HW Hth.
  destruct (@fit_total cfg ord X y Ho Hn HL Hy HR HW (or_intror Hth) root) as [H|[[q (A & B & C & D)] E]]; [left; assumption|].
  right. split; [assumption|]. split; [assumption|]. exists q. auto.
Qed.
Print Assumptions C25_nonpositive_threshold.

(** ... and such a node always raises: a tree that was built has none among its nodes, and if
    the root is one, fit raises KeyError *)
Theorem C25_no_stuck_node : forall cfg ord X y t p n, trained cfg ord X y t -> (f_threshold cfg <= 0)%R ->
  node_at t p n -> t_leaf n = true -> 0 < mass (f_vars cfg) X p ->
  limit_met cfg X y p \/ (forall a, untested (f_vars cfg) p a -> (info_gain (f_vars cfg) X y p a < f_threshold cfg)%R).
Proof.
  intros cfg ord X y t p n T Hth H L M. destruct (node_leaf T H L M) as [A|[A|[_ A]]]; [auto|auto|exfalso; lra].
Qed.
Print Assumptions C25_no_stuck_node.

Theorem C25_root_key_error : forall cfg ord X y root,
  (forall p s, Permutation (ord p s) s) -> distinct_names (f_vars cfg) ->
  List.length X = List.length y -> y <> [] -> readable (f_vars cfg) X -> wide (f_vars cfg) X ->
  ~ In ""%string (map fv_name (f_vars cfg)) -> (f_threshold cfg <= 0)%R -> ~ limit_met cfg X y [] ->
  (forall a, (a < List.length (f_vars cfg))%nat -> (info_gain (f_vars cfg) X y [] a <= 0)%R) ->
  fit cfg ord root X y = Err KeyError.
Proof.
  intros cfg ord X y root Ho Hn HL Hy HR HW Hth T NL G.
  apply (@fit_root_stuck cfg ord X y Ho Hn HL Hy HR HW (or_intror Hth) root).
  split; [apply (@root_mass cfg X y); assumption|]. split; [assumption|]. split; [assumption|]. intros a [Ha _]. auto.
Qed.
Print Assumptions C25_root_key_error.

(** two equal rows of different classes, threshold 0: KeyError *)
Definition ex_same_X : list (list cell) := [[CNum 0]; [CNum 0]].
Example C25_instance : fit (mkFDT [ex_v "x"] 0 10 1 qmin AggVote) same_order fresh_root ex_same_X ex_y = Err KeyError.
Proof.
  destruct (ex_readable "x" ex_same_X) as [R W]. { intros row [<-|[<-|[]]]; eauto. }
  apply C25_root_key_error; try assumption.
  - intros; apply Permutation_refl.
  - split; [repeat constructor; intros []|]. intros v [<-|[]]. repeat constructor; cbn; [intros [H|[]]; discriminate|intros []].
  - reflexivity.
  - discriminate.
  - intros [H|[]]. discriminate.
  - cbn. lra.
  - intros [H|[H|H]].
    + assert (1 = 0)%Z by (apply H; vm_compute; auto). discriminate.
    + vm_compute in H. discriminate.
    + vm_compute in H. apply H. reflexivity.
  - intros a Ha. cbn in Ha. assert (a = 0%nat) by lia. subst a. unfold info_gain. cbn [f_vars nth_error fv_sets ex_v List.length seq map app].
    assert (A0 : acts [ex_v "x"] ex_same_X [] = [1; 1]) by reflexivity.
    assert (A1 : acts [ex_v "x"] ex_same_X [(0, 0)%nat] = [1; 1]) by qex.
    assert (A2 : acts [ex_v "x"] ex_same_X [(0, 1)%nat] = [0; 0]) by qex.
    unfold mass, ex_y. rewrite A0, A1, A2. rewrite (@entropy_two 1 0) by discriminate. rewrite (@entropy_pure 0 0) by (auto; qlra).
    unfold rsum. cbn [fold_right]. assert (S : qr (qsum [1; 1]) = 2%R) by (rewrite !qsum_cons, qsum_nil, !qr_plus, !qr_1, qr_0; lra).
    rewrite S. lra.
Qed.

(** ** C26 *)
Theorem C26_votes_equal_rule_totals : forall cfg ord X y t row m,
  trained cfg ord X y t -> (forall v, In v (f_vars cfg) -> fv_sets v <> []) -> t_leaf t = false ->
  row_membership (f_vars cfg) row m ->
  exists rules ms, tree_rules t 0 = Ok rules /\ Forall2 (fun r x => matching m r = Ok x) rules ms /\
    forall c, support rules ms c = tree_support qmin (f_vars cfg) t row c.
Proof.
  intros cfg ord X y t row m T Hs L R. destruct (trained_wf T Hs) as [W V].
  destruct (@rules_support _ _ t row m W V (zunique_NoDup y) L R) as (rules & ms & A & B & C & _). eauto.
Qed.
Print Assumptions C26_votes_equal_rule_totals.

Theorem C26_strict_winner : forall cfg ord X y t row m c rules,
  trained cfg ord X y t -> (forall v, In v (f_vars cfg) -> fv_sets v <> []) -> t_leaf t = false ->
  f_tnorm cfg = qmin -> f_voting cfg = AggVote ->
  readable (f_vars cfg) [row] -> row_membership (f_vars cfg) row m -> tree_rules t 0 = Ok rules ->
  In c y -> (forall c', In c' y -> c' <> c -> tree_support qmin (f_vars cfg) t row c' < tree_support qmin (f_vars cfg) t row c) ->
  predict cfg t [row] = Ok [c] /\ weighted_vote rules m = Ok c.
Proof.
  intros cfg ord X y t row m c rules T Hs L Htn Hvt HR R HT Hc Hw. destruct (trained_wf T Hs) as [W V].
  destruct (trained_fitted T) as (_ & Hy & _). assert (Hne : zunique y <> []).
  { intro E. rewrite <- zunique_In, E in Hc. destruct Hc. }
  split.
  - destruct (@predict_spec cfg t (zunique y) [row] W V (zunique_sorted y) (zunique_NoDup y) Hne HR) as [ps [E F]]. rewrite E.
    inversion F as [|? c' ? qs B F']; subst. inversion F'; subst. f_equal. f_equal. destruct B as [B1 B2]. destruct (Z.eq_dec c' c) as [|D]; [assumption|]. exfalso.
    unfold row_support in B2. rewrite Htn, Hvt in B2. rewrite zunique_In in B1. specialize (Hw c' B1 D). destruct (B2 c) as [B3 _]; [apply zunique_In; assumption|]. qlra.
  - destruct (@rules_support _ _ t row m W V (zunique_NoDup y) L R) as (rules' & ms & A & B & C & D & E). rewrite HT in A. injection A as <-.
    apply (@strict_winner (zunique y) rules ms m _ c B E D C); [intro; eapply tree_support_nonneg; eassumption|apply zunique_In; assumption|].
    intros c' Hc'. apply Hw. apply zunique_In. assumption.
Qed.
Print Assumptions C26_strict_winner.

(** a tree that is a single leaf predicts, but its rules have empty antecedents *)
Theorem C26_root_leaf_rules_fail : forall cfg ord X y t m rules,
  trained cfg ord X y t -> (forall v, In v (f_vars cfg) -> fv_sets v <> []) -> t_leaf t = true -> tree_rules t 0 = Ok rules ->
  weighted_vote rules m = Err ValueError.
Proof.
  intros cfg ord X y t m rules T Hs L HT. destruct (trained_wf T Hs) as [W V]. rewrite (@tree_rules_spec _ _ 0 t W V) in HT.
  destruct t as [lf cs cv lv va vr mu]. cbn in L. subst lf. cbn [leaves map List.concat] in HT. rewrite app_nil_r in HT. injection HT as <-.
  destruct (leaf_rules (f_vars cfg) [] 0 ([], Tree true cs cv lv va vr mu)) as [|r rs] eqn:E; [reflexivity|].
  apply (@C19_empty_rule m (r :: rs) r); [left; reflexivity|].
  assert (In r (leaf_rules (f_vars cfg) [] 0 ([], Tree true cs cv lv va vr mu))) by (rewrite E; left; reflexivity).
  unfold leaf_rules in H. apply in_map_iff in H. destruct H as [kw [<- _]]. reflexivity.
Qed.
Print Assumptions C26_root_leaf_rules_fail.

(** on ties the two can disagree: predict takes the least class, weighted_vote the class of the
    first rule *)
Theorem C26_tie_disagreement : exists t rules m,
  trained (ex_cfg AggVote) same_order ex_X ex_y t /\ tree_rules t 0 = Ok rules /\
  row_membership [ex_v "x"] [CNum (qz 5)] m /\
  predict (ex_cfg AggVote) t [[CNum (qz 5)]] = Ok [0%Z] /\ weighted_vote rules m = Ok 1%Z.
Proof.
  exists (one_tree (ex_cfg AggVote) ex_X ex_y (ex_v "x")). eexists. exists [("x", [("low", qc 1 2); ("high", qc 1 2)])].
  split; [apply ex_fit; auto|]. split; [vm_compute; reflexivity|]. split; [|split; [vm_compute; reflexivity|vm_compute; reflexivity]].
  intros a v i s Hv Hs. destruct a as [|[|a]]; [|discriminate|discriminate]. injection Hv as <-.
  destruct i as [|[|i]]; [| |destruct i; discriminate]; injection Hs as <-.
  - exists [("low", qc 1 2); ("high", qc 1 2)]. split; [reflexivity|]. cbn [dget fs_name c_name]. f_equal. qex.
  - exists [("low", qc 1 2); ("high", qc 1 2)]. split; [reflexivity|]. assert (E : eqb "high" "low" = false) by reflexivity. cbn [dget fs_name c_name]. rewrite E, eqb_refl. f_equal. qex.
Qed.
Print Assumptions C26_tie_disagreement.

Example C26_instance : exists rules, tree_rules (one_tree (ex_cfg AggVote) ex_X ex_y (ex_v "x")) 0 = Ok rules /\ List.length rules = 2%nat /\
  predict (ex_cfg AggVote) (one_tree (ex_cfg AggVote) ex_X ex_y (ex_v "x")) [[CNum (qz 2)]; [CNum (qz 8)]] = Ok [1; 0]%Z.
Proof. eexists. split; [vm_compute; reflexivity|]. split; [reflexivity|vm_compute; reflexivity]. Qed.

(** ** C27 *)
Theorem C27_predict_maximal_vote : forall cfg ord X y t X',
  trained cfg ord X y t -> (forall v, In v (f_vars cfg) -> fv_sets v <> []) -> readable (f_vars cfg) X' ->
  exists ps, predict cfg t X' = Ok ps /\
    Forall2 (fun row c => best_class (zunique y) (row_support cfg t row) c) X' ps.
Proof.
  intros cfg ord X y t X' T Hs R. destruct (trained_wf T Hs) as [W V]. destruct (trained_fitted T) as (_ & Hy & _).
  apply predict_spec; try assumption; [apply zunique_sorted|apply zunique_NoDup|].
  destruct y as [|c y]; [congruence|]. intro E. assert (In c (zunique (c :: y))) by (apply zunique_In; left; reflexivity). rewrite E in H. destruct H.
Qed.
Print Assumptions C27_predict_maximal_vote.

Theorem C27_predict_rowwise : forall cfg ord X y t X' ps,
  trained cfg ord X y t -> (forall v, In v (f_vars cfg) -> fv_sets v <> []) -> readable (f_vars cfg) X' ->
  predict cfg t X' = Ok ps -> Forall2 (fun row c => In c y /\ predict cfg t [row] = Ok [c]) X' ps.
Proof.
  intros cfg ord X y t X' ps T Hs R E. destruct (trained_wf T Hs) as [W V]. destruct (trained_fitted T) as (_ & Hy & _).
  assert (Hne : zunique y <> []).
  { destruct y as [|c y]; [congruence|]. intro Q. assert (In c (zunique (c :: y))) by (apply zunique_In; left; reflexivity). rewrite Q in H. destruct H. }
  assert (A := @predict_rowwise cfg t (zunique y) X' ps W V (zunique_sorted y) (zunique_NoDup y) Hne R E).
  destruct (@C27_predict_maximal_vote cfg ord X y t X' T Hs R) as [ps' [E' B]]. rewrite E in E'. injection E' as <-. clear - A B.
  induction A as [|row c X' ps A1 A2 IH]; [constructor|]. inversion B as [|? ? ? ? B1 B2]; subst. constructor; [|auto].
  split; [|assumption]. apply zunique_In. apply B1.
Qed.
Print Assumptions C27_predict_rowwise.

(** the names of the voting methods: any other name is a ValueError *)
Theorem C27_voting_names : voting_of "agg_vote" = Ok AggVote /\ voting_of "max_match" = Ok MaxMatch /\
  forall s, s <> "agg_vote"%string -> s <> "max_match"%string -> voting_of s = Err ValueError.
Proof.
  split; [reflexivity|]. split; [reflexivity|]. intros s A B. unfold voting_of. rewrite (proj2 (@eqb_neq string _ s "agg_vote"%string) A), (proj2 (@eqb_neq string _ s "max_match"%string) B). reflexivity.
Qed.
Print Assumptions C27_voting_names.
(** the leaves counted by the vote are exactly the leaf nodes of the tree *)
Theorem C27_leaves_are_leaf_nodes : forall cfg ord X y t p n,
  trained cfg ord X y t -> (forall v, In v (f_vars cfg) -> fv_sets v <> []) ->
  (In (p, n) (leaves t) <-> node_at t p n /\ t_leaf n = true).
Proof. intros cfg ord X y t p n T Hs. destruct (trained_wf T Hs) as [W _]. exact (@leaves_node_at _ _ t W p n). Qed.
Print Assumptions C27_leaves_are_leaf_nodes.

Example C27_instance :
  predict (ex_cfg MaxMatch) (one_tree (ex_cfg MaxMatch) ex_X ex_y (ex_v "x")) [[CNum (qz 2)]; [CNum (qz 5)]] = Ok [1; 0]%Z /\
  row_support (ex_cfg MaxMatch) (one_tree (ex_cfg MaxMatch) ex_X ex_y (ex_v "x")) [CNum (qz 2)] 1 = qc 4 5.
Proof. split; [vm_compute; reflexivity|qex]. Qed.

(** a variable without sets has the entropy itself as gain: the tree gets a childless inner
    node and predict fails, which is why the theorems above ask for non-empty variables *)
Theorem C27_variable_without_sets : exists t,
  fit (mkFDT [mkV "x" []] (1 / 10000)%R 10 1 qmin AggVote) same_order fresh_root ex_X ex_y = Ok t /\
  predict (mkFDT [mkV "x" []] (1 / 10000)%R 10 1 qmin AggVote) t ex_X = Err ValueError.
Proof.
  eexists. split.
  - apply one_fit with (v := mkV "x" []); try reflexivity; try discriminate; cbn [f_threshold f_vars].
    + constructor.
    + intros row _ a v s Hv Hs. destruct a as [|[|a]]; [|discriminate|discriminate]. injection Hv as <-. destruct Hs.
    + intros row [<-|[<-|[]]]; cbn; lia.
    + lra.
    + intros [H|[H|H]].
      * assert (1 = 0)%Z by (apply H; vm_compute; auto). discriminate.
      * vm_compute in H. discriminate.
      * vm_compute in H. apply H. reflexivity.
    + unfold info_gain. cbn [nth_error fv_sets List.length seq map]. assert (A0 : acts [mkV "x" []] ex_X [] = [1; 1]) by reflexivity. rewrite A0.
      unfold ex_y. rewrite (@entropy_two 1 0) by discriminate. unfold rsum. cbn [fold_right]. unfold Rdiv. rewrite Rmult_0_l. lra.
  - reflexivity.
Qed.
Print Assumptions C27_variable_without_sets.

(** ** C28 *)
Theorem C28_node_memberships : forall cfg ord X y t p n, trained cfg ord X y t -> node_at t p n ->
  t_mu n = map (fun row => activation qmin (f_vars cfg) row p) X /\
  (0 < mass (f_vars cfg) X p -> t_level n = Z.of_nat (List.length p)).
Proof. intros cfg ord X y t p n T H. split; [exact (node_mu T H)|exact (node_level T H)]. Qed.
Print Assumptions C28_node_memberships.

Theorem C28_activation_is_minimum : forall vars row p,
  (forall l, In l p -> activation qmin vars row p <= lit_degree vars row l) /\ activation qmin vars row p <= 1 /\
  (activation qmin vars row p = 1 \/ exists l, In l p /\ activation qmin vars row p = lit_degree vars row l).
Proof.
  intros vars row p. induction p as [|l p IH] using rev_ind; [split; [intros ? []|split; [apply activation_01|left; reflexivity]]|].
  destruct IH as (A & B & C). rewrite activation_snoc. split; [|split].
  - intros l' Hl. apply in_app_or in Hl. destruct Hl as [Hl|[<-|[]]]; [eapply Qcle_trans; [apply qmin_l|auto]|apply qmin_r].
  - eapply Qcle_trans; [apply qmin_l|assumption].
  - unfold qmin at 1 3. destruct (qltb _ _); [right; exists l; split; [apply in_or_app; right; left; reflexivity|reflexivity]|].
    destruct C as [C|[l' [C1 C2]]]; [left; assumption|right; exists l'; split; [apply in_or_app; left; assumption|assumption]].
Qed.
Print Assumptions C28_activation_is_minimum.

Theorem C28_tnorm_never_influences_training : forall vars th md me tn tn' vt vt' ord root X y,
  fit (mkFDT vars th md me tn vt) ord root X y = fit (mkFDT vars th md me tn' vt') ord root X y.
Proof. exact fit_ignores_tnorm. Qed.
Print Assumptions C28_tnorm_never_influences_training.

Example C28_instance : acts [ex_v "x"] ex_X [(0, 0)%nat] = [1; 0].
Proof. qex. Qed.

(** ** C29 *)
Theorem C29_refit_same_data : forall cfg ord X y t k, trained cfg ord X y t -> (forall v, In v (f_vars cfg) -> fv_sets v <> []) ->
  exists t', refits cfg ord X y k t = Ok t' /\
    (forall X', readable (f_vars cfg) X' -> predict cfg t' X' = predict cfg t X') /\
    (t_leaf t = false -> forall th rules, tree_rules t th = Ok rules -> tree_rules t' th = Ok (List.concat (repeat rules (S k)))).
Proof.
  intros cfg ord X y t k T Hs. destruct (trained_wf T Hs) as [W V]. destruct (trained_root T) as (V1 & V2 & C). destruct (trained_fitted T) as (_ & Hy & _).
  assert (Hne : zunique y <> []).
  { destruct y as [|c y]; [congruence|]. intro Q. assert (In c (zunique (c :: y))) by (apply zunique_In; left; reflexivity). rewrite Q in H. destruct H. }
  exists (copies k t). split; [apply refits_copies; try assumption; apply T|]. split.
  - intros X' R. apply (@copies_predict cfg t (zunique y) X' k W V (zunique_sorted y) (zunique_NoDup y) Hne R).
  - intros L th rules HT. exact (@copies_rules _ _ t th k rules W V L HT).
Qed.
Print Assumptions C29_refit_same_data.

Theorem C29_refit_keeps_old_subtrees : forall cfg ord X y X2 y2 t t2, trained cfg ord X y t -> trained cfg ord X2 y2 t2 ->
  exists t', fit cfg ord t X2 y2 = Ok t' /\ t_children t' = t_children t ++ t_children t2 /\ t_leaf t' = t_leaf t2.
Proof.
  intros cfg ord X y X2 y2 t t2 T T2. destruct (trained_root T) as (V1 & V2 & _). exists (merge_root t t2).
  split; [apply refit_shape; try assumption; apply T2|]. split; reflexivity.
Qed.
Print Assumptions C29_refit_keeps_old_subtrees.

(** the second data set has the labels of the first swapped *)
Theorem C29_refit_differs_from_fresh : exists t t2 t', let cfg := ex_cfg AggVote in
  trained cfg same_order ex_X [1; 0]%Z t /\ trained cfg same_order ex_X [0; 1]%Z t2 /\ fit cfg same_order t ex_X [0; 1]%Z = Ok t' /\
  predict cfg t2 ex_X = Ok [0; 1]%Z /\ predict cfg t' ex_X = Ok [0; 0]%Z.
Proof.
  exists (one_tree (ex_cfg AggVote) ex_X [1; 0]%Z (ex_v "x")), (one_tree (ex_cfg AggVote) ex_X [0; 1]%Z (ex_v "x")). eexists.
  split; [apply ex_fit; auto|]. split; [apply ex_fit; auto|]. split; [apply refit_shape; [reflexivity|reflexivity|apply ex_fit; auto]|].
  split; vm_compute; reflexivity.
Qed.
Print Assumptions C29_refit_differs_from_fresh.

(** ** C30 *)
Theorem C30_gain_optimal_choice : forall cfg ord X y t p n, trained cfg ord X y t -> node_at t p n -> t_leaf n = false ->
  exists a v, nth_error (f_vars cfg) a = Some v /\ Forall (fun c => exists i, t_value c = Some (a, i)) (t_children n) /\
    untested (f_vars cfg) p a /\ (0 < info_gain (f_vars cfg) X y p a)%R /\ (f_threshold cfg <= info_gain (f_vars cfg) X y p a)%R /\
    ~ limit_met cfg X y p /\
    (forall b, untested (f_vars cfg) p b -> (info_gain (f_vars cfg) X y p b <= info_gain (f_vars cfg) X y p a)%R) /\
    (* it is the first maximal one in the iteration order of the set of untested features *)
    exists s l1 l2, (forall f, In f s <-> exists b w, untested (f_vars cfg) p b /\ nth_error (f_vars cfg) b = Some w /\ fv_name w = f) /\
      ord p s = l1 ++ fv_name v :: l2 /\
      forall b w, nth_error (f_vars cfg) b = Some w -> In (fv_name w) l1 -> (info_gain (f_vars cfg) X y p b < info_gain (f_vars cfg) X y p a)%R.
Proof.
  intros cfg ord X y t p n T H L. destruct (node_inner T H L) as (a & v & Hv & Ch & St & M & A & B). exists a, v. split; [assumption|].
  split.
  { apply Forall_forall. intros c Hc. apply (in_map t_value) in Hc. rewrite A in Hc. apply in_map_iff in Hc. destruct Hc as [i [E _]]. exists i. auto. }
  destruct (chosen_max T Ch) as (U & P & Mx). split; [assumption|]. split; [assumption|].
  apply not_stops in St. destruct St as [St1 St2]. split; [assumption|]. split; [assumption|]. split; [assumption|].
  destruct Ch as (_ & _ & l1 & l2 & E & Q1 & _). exists (remaining cfg p), l1, l2. split; [|split; assumption].
  intro f. split.
  - intro Hf. destruct (@remaining_spec cfg p) as (_ & I & _). specialize (I f Hf). apply in_map_iff in I. destruct I as [w [Ew Hw]]. apply In_nth_error in Hw. destruct Hw as [b Hb].
    exists b, w. split; [|auto]. apply (untested_remaining T p b Hb). congruence.
  - intros (b & w & Ub & Hw & <-). apply (untested_remaining T p b Hw). assumption.
  - apply (trained_fitted T).
Qed.
Print Assumptions C30_gain_optimal_choice.

Theorem C30_order_irrelevant_without_ties : forall cfg ord1 ord2 X y root,
  (forall p s, Permutation (ord1 p s) s) -> (forall p s, Permutation (ord2 p s) s) -> distinct_names (f_vars cfg) ->
  (0 < f_threshold cfg)%R \/ ~ In ""%string (map fv_name (f_vars cfg)) ->
  (forall p a b, untested (f_vars cfg) p a -> untested (f_vars cfg) p b -> (0 < info_gain (f_vars cfg) X y p a)%R ->
     info_gain (f_vars cfg) X y p a = info_gain (f_vars cfg) X y p b ->
     (forall c, untested (f_vars cfg) p c -> (info_gain (f_vars cfg) X y p c <= info_gain (f_vars cfg) X y p a)%R) -> a = b) ->
  fit cfg ord1 root X y = fit cfg ord2 root X y.
Proof. intros cfg ord1 ord2 X y root H1 H2 H3 H4 H5. exact (@order_fit cfg ord1 ord2 X y H1 H2 H3 H4 H5 root). Qed.
Print Assumptions C30_order_irrelevant_without_ties.

(** two identical columns: the order decides which one is tested *)
Definition ex_cfg2 : fdt_cfg := mkFDT [ex_v "a"; ex_v "b"] (1 / 10000)%R 10 1 qmin AggVote.
Theorem C30_ties_depend_on_order : exists t1 t2,
  trained ex_cfg2 (fun _ s => s) ex_X2 ex_y t1 /\ trained ex_cfg2 (fun _ s => rev s) ex_X2 ex_y t2 /\
  map t_value (t_children t1) = [Some (0, 0)%nat; Some (0, 1)%nat] /\ map t_value (t_children t2) = [Some (1, 0)%nat; Some (1, 1)%nat].
Proof.
  assert (DN : distinct_names (f_vars ex_cfg2)).
  { split; [repeat constructor; cbn; [intros [H|[]]; discriminate|intros []]|].
    intros v [<-|[<-|[]]]; repeat constructor; cbn; try (intros [H|[]]; discriminate); intros []. }
  assert (R : readable (f_vars ex_cfg2) ex_X2).
  { intros row Hr a v s Hv Hs. assert (exists x, row = [CNum x; CNum x]) as [x ->] by (destruct Hr as [<-|[<-|[]]]; eauto).
    exists (CNum x). destruct a as [|[|a]]; [| |destruct a; discriminate]; injection Hv as <-; destruct Hs as [<-|[<-|[]]]; eexists; (split; [reflexivity|reflexivity]). }
  assert (Wd : wide (f_vars ex_cfg2) ex_X2) by (intros row [<-|[<-|[]]]; cbn; lia).
  assert (Th : (0 < f_threshold ex_cfg2)%R) by (cbn; lra).
  assert (G : forall a, (a < 2)%nat -> info_gain (f_vars ex_cfg2) ex_X2 ex_y [] a = 1%R).
  { intros a Ha. unfold info_gain.
    assert (A0 : acts (f_vars ex_cfg2) ex_X2 [] = [1; 1]) by reflexivity.
    assert (A1 : acts (f_vars ex_cfg2) ex_X2 [(a, 0)%nat] = [1; 0]) by (destruct a as [|[|a]]; [qex|qex|lia]).
    assert (A2 : acts (f_vars ex_cfg2) ex_X2 [(a, 1)%nat] = [0; 1]) by (destruct a as [|[|a]]; [qex|qex|lia]).
    assert (S2 : seq 0 (match nth_error (f_vars ex_cfg2) a with Some v => List.length (fv_sets v) | None => 0%nat end) = [0; 1]%nat) by (destruct a as [|[|a]]; [reflexivity|reflexivity|lia]).
    rewrite S2. cbn [map app]. unfold mass, ex_y. rewrite A0, A1, A2. rewrite (@entropy_two 1 0) by discriminate. rewrite !entropy_pure by (auto; qlra).
    unfold rsum. cbn [fold_right]. unfold Rdiv. ring. }
  assert (NL : ~ limit_met ex_cfg2 ex_X2 ex_y []).
  { intros [H|[H|H]].
    - assert (1 = 0)%Z by (apply H; vm_compute; auto). discriminate.
    - vm_compute in H. discriminate.
    - vm_compute in H. apply H. reflexivity. }
  assert (K : forall ord a, (forall p s, Permutation (ord p s) s) -> (a < 2)%nat ->
    (exists first second, ord [] ["a"; "b"] = [first; second] /\ nth_error ["a"; "b"] a = Some first) ->
    exists t, trained ex_cfg2 ord ex_X2 ex_y t /\ map t_value (t_children t) = [Some (a, 0)%nat; Some (a, 1)%nat]).
  { intros ord a Ho Ha (first & second & Eo & Ef).
    destruct (@C25_training_total ex_cfg2 ord ex_X2 ex_y fresh_root Ho DN eq_refl ltac:(discriminate) R Wd Th) as [t Ht].
    assert (T : trained ex_cfg2 ord ex_X2 ex_y t) by (split; [assumption|split; [assumption|split; [left; assumption|assumption]]]).
    exists t. split; [assumption|]. assert (L : t_leaf t = false).
    { destruct (t_leaf t) eqn:L; [|reflexivity]. exfalso.
      assert (M : 0 < mass (f_vars ex_cfg2) ex_X2 []) by (apply (@root_mass ex_cfg2 ex_X2 ex_y); [reflexivity|discriminate]).
      assert (U : untested (f_vars ex_cfg2) [] 0) by (split; [cbn; lia|intros []]).
      destruct (node_leaf T (at_self t) L M) as [C|[C|[C _]]]; [contradiction| |]; specialize (C 0%nat U); rewrite G in C by lia; cbn in C; lra. }
    destruct (node_inner T (at_self t) L) as (a' & v' & Hv' & Ch & _ & _ & A & _). rewrite A.
    destruct Ch as (_ & _ & l1 & l2 & E & Q1 & _). assert (Rm : remaining ex_cfg2 [] = ["a"; "b"]) by reflexivity. rewrite Rm, Eo in E.
    assert (l1 = []).
    { destruct l1 as [|f l1]; [reflexivity|]. exfalso. injection E as E1 E2. subst f. specialize (Q1 a).
      assert (Hb : exists w, nth_error (f_vars ex_cfg2) a = Some w /\ fv_name w = first).
      { destruct a as [|[|a]]; [| |lia]; injection Ef as <-; eexists; (split; reflexivity). }
      destruct Hb as [w [Hw <-]]. specialize (Q1 w Hw (or_introl eq_refl)).
      assert (Ha' : (a' < 2)%nat) by (change 2%nat with (List.length (f_vars ex_cfg2)); apply nth_error_Some; congruence). rewrite !G in Q1 by assumption. lra. }
    subst l1. injection E as E _.
    assert (a' = a).
    { destruct a as [|[|a]]; [| |lia]; injection Ef as <-; (destruct a' as [|[|a']]; [| |destruct a'; discriminate]); injection Hv' as <-; try reflexivity; discriminate. }
    subst a'. destruct a as [|[|a]]; [| |lia]; injection Hv' as <-; reflexivity. }
  destruct (K (fun _ s => s) 0%nat) as [t1 [T1 V1]]; [intros; apply Permutation_refl|lia|exists "a", "b"; split; reflexivity|].
  destruct (K (fun _ s => rev s) 1%nat) as [t2 [T2 V2]]; [intros; apply Permutation_sym, Permutation_rev|lia|exists "b", "a"; split; reflexivity|].
  exists t1, t2. auto.
Qed.
Print Assumptions C30_ties_depend_on_order.

(** ** C35 (fuzzy trees) *)
Theorem C35_fdt_threshold_zero : forall cfg ord X y t simplify, trained cfg ord X y t -> (forall v, In v (f_vars cfg) -> fv_sets v <> []) ->
  exists rules, to_rule_based_system t false simplify = Ok rules /\
    forall r, In r rules <-> exists p n c w, node_at t p n /\ t_leaf n = true /\ 0 < w /\ w = leaf_weight n c /\ In c y /\
      r = mkR (map (lit_name (f_vars cfg)) p) c w.
Proof.
  intros cfg ord X y t simplify T Hs. destruct (trained_wf T Hs) as [W V]. unfold to_rule_based_system.
  rewrite (@tree_rules_spec _ _ 0 t W V). eexists. split; [reflexivity|]. intro r. rewrite in_concat. split.
  - intros [l [Hl Hr]]. apply in_map_iff in Hl. destruct Hl as [[p n] [<- Hin]]. destruct (@wf_leaves _ _ _ W _ _ Hin) as ((d & Ed & K & _) & _).
    unfold leaf_rules in Hr. cbn [fst snd app] in Hr. rewrite Ed in Hr. apply in_map_iff in Hr. destruct Hr as [[c w] [<- Hr]].
    apply filter_In in Hr. destruct Hr as [Hr Hw]. cbn [fst snd] in *. rewrite qltb_lt in Hw. apply (@leaves_node_at _ _ _ W) in Hin.
    exists p, n, c, w. split; [apply Hin|]. split; [apply Hin|]. split; [assumption|]. split; [|split; [|reflexivity]].
    + unfold leaf_weight. rewrite Ed. rewrite (@dget_nodup Z Qc _ c w d); [reflexivity|unfold dkeys; rewrite K; apply zunique_NoDup|assumption].
    + apply zunique_In. rewrite <- K. exact (in_map fst _ _ Hr).
  - intros (p & n & c & w & Hn & L & Hw & Ew & Hc & ->). assert (Hin : In (p, n) (leaves t)) by (apply (@leaves_node_at _ _ _ W); auto).
    eexists. split; [apply in_map; exact Hin|]. destruct (@wf_leaves _ _ _ W _ _ Hin) as ((d & Ed & K & _) & _).
    unfold leaf_rules. cbn [fst snd app]. rewrite Ed. apply in_map_iff. exists (c, w). split; [reflexivity|]. apply filter_In. split; [|apply qltb_lt; assumption].
    unfold leaf_weight in Ew. rewrite Ed in Ew. rewrite <- zunique_In, <- K in Hc. apply dget_ex in Hc. destruct Hc as [w' Hw']. rewrite Hw' in Ew. subst w'. apply dget_In. assumption.
Qed.
Print Assumptions C35_fdt_threshold_zero.

Theorem C35_fdt_verbose_returns_nothing : forall cfg ord X y t simplify, trained cfg ord X y t -> (forall v, In v (f_vars cfg) -> fv_sets v <> []) ->
  to_rule_based_system t true simplify = Ok [].
Proof.
  intros cfg ord X y t simplify T Hs. destruct (trained_wf T Hs) as [W V]. unfold to_rule_based_system. rewrite (@tree_rules_spec _ _ 1 t W V). f_equal.
  assert (G : forall L, incl L (leaves t) -> List.concat (map (leaf_rules (f_vars cfg) [] 1) L) = []).
  { induction L as [|[p n] L IH]; intro I; [reflexivity|]. cbn [map List.concat]. rewrite IH by (intros z Hz; apply I; right; assumption). rewrite app_nil_r.
    destruct (@wf_leaves _ _ _ W p n) as ((d & Ed & _ & W01 & _) & _); [apply I; left; reflexivity|]. unfold leaf_rules. cbn [fst snd]. rewrite Ed.
    replace (filter (fun kw => qltb 1 (snd kw)) d) with (@nil (Z * Qc)); [reflexivity|]. symmetry.
    clear - W01. induction d as [|[c w] d IH]; [reflexivity|]. cbn [filter snd]. destruct (W01 c w (or_introl eq_refl)) as [_ H].
    rewrite (proj2 (qltb_ge 1 w) H). apply IH. intros; apply (W01 c0 w0). right. assumption. }
  apply G. apply incl_refl.
Qed.
Print Assumptions C35_fdt_verbose_returns_nothing.

(** ** C40 *)
Theorem C40_fdt_score : forall cfg t X y s, fdt_score cfg t X y = Ok s ->
  exists ps, predict cfg t X = Ok ps /\ List.length ps = List.length y /\
    s = qn (List.length (filter (fun p => Z.eqb (fst p) (snd p)) (combine ps y))) / qn (List.length y) /\
    0 <= s /\ s <= 1 /\ (s = 1 <-> ps = y) /\ (s = 0 <-> forall i c, nth_error y i = Some c -> nth_error ps i <> Some c).
Proof.
  intros cfg t X y s H. unfold fdt_score in H. destruct (Nat.eqb_spec (List.length X) (List.length y)) as [L|L]; cbn [negb orb] in H; [|discriminate].
  destruct (Nat.eqb_spec (List.length y) 0) as [L0|L0]; [discriminate|]. destruct (predict cfg t X) as [ps|] eqn:E; cbn [bind] in H; [|discriminate].
  injection H as <-. assert (Lp := predict_length _ _ _ E). exists ps. split; [reflexivity|]. split; [congruence|]. split; [reflexivity|].
  apply score_spec; [congruence|]. intros ->. apply L0. reflexivity.
Qed.
Print Assumptions C40_fdt_score.

Example C40_instance : fdt_score (ex_cfg AggVote) (one_tree (ex_cfg AggVote) ex_X ex_y (ex_v "x")) [[CNum (qz 2)]; [CNum (qz 8)]; [CNum 0]] [1; 1; 1]%Z = Ok (qc 2 3).
Proof. qex. Qed.
