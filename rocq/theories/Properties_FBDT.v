(** * Properties C31-C35, C40: binary fuzzy decision trees *)
From Verif Require Import Prelude M_Fuzzy M_Discretize M_Rule M_FDT M_FBDT S_Rule S_FDT S_FBDT P_FuzzySet P_FuzzyVar P_Entropy P_Rule P_FDT P_FDT2 P_FDT3 P_FDT4 P_FBDT P_FBDT2 P_FBDT3 Properties_FDT.
From Coq Require Import Reals Lra.
Open Scope string_scope.
Open Scope list_scope.
Open Scope Qc_scope.

Lemma btrained_node cfg psort X y t p n : btrained cfg psort X y t -> bnode_at t p n ->
  path_ok cfg p /\ (exists cats, bcontext cfg psort X y cats /\ good_node cfg psort X y cats p n) /\ (Z.of_nat (List.length p) <= Z.max 0 (f_max_depth cfg))%Z.
Proof.
  intros T H. destruct (btrained_fitted T) as (cats & HC & _ & _ & F).
  destruct (@bnodes cfg psort X y cats HC t p n H [] (broot y) (path_nil cfg) F eq_refl) as (A & B & C). cbn [app] in *.
  split; [assumption|]. split; [eauto|]. apply C. cbn. lia.
Qed.
Lemma btrained_wf cfg psort X y t : btrained cfg psort X y t -> bwf (f_vars cfg) (zunique y) t /\ b_value t = None.
Proof.
  intro T. destruct (btrained_fitted T) as (cats & HC & _ & _ & F). split; [|exact (proj1 (@bfitted_value _ _ _ _ _ HC _ _ _ F))].
  exact (@bfitted_wf cfg psort X y cats HC t [] (broot y) (path_nil cfg) F eq_refl I).
Qed.
Lemma btrained_y cfg psort X y t : btrained cfg psort X y t -> zunique y <> [].
Proof.
  intro T. destruct (btrained_fitted T) as (cats & (_ & _ & _ & Hy & _) & _). destruct y as [|c y]; [congruence|]. intro E.
  assert (In c (zunique (c :: y))) by (apply zunique_In; left; reflexivity). rewrite E in H. destruct H.
Qed.

(** a binary tree of two leaves, trained on the two rows of Properties_FDT *)
Definition no_sort : list (string * option Qc) -> list (string * option Qc) := fun l => l.
Definition ex_btree : btree :=
  BTree false [BTree true [] (Some [(0%Z, 0); (1%Z, 1)]) 1 (Some (0%nat, [0%nat])) (Some (ex_v "x")) [1; 0] [("x", 0%nat)];
               BTree true [] (Some [(0%Z, 1); (1%Z, 0)]) 1 (Some (0%nat, [1%nat])) (Some (ex_v "x")) [0; 1] [("x", 1%nat)]]
        None 0 None None [1; 1] [].
Lemma ex_btrained vt : btrained (ex_cfg vt) no_sort ex_X ex_y ex_btree.
Proof.
  assert (N : NoDup (map fs_name (fv_sets (ex_v "x")))) by (repeat constructor; cbn; [intros [H|[]]; discriminate|intros []]).
  assert (DN : distinct_names (f_vars (ex_cfg vt))) by (split; [repeat constructor; intros []|intros v [<-|[]]; assumption]).
  split; [intros; apply Permutation_refl|]. split; [assumption|]. exists [[0; 0]; [0; 0]].
  destruct (ex_readable "x" ex_X) as [R W]. { intros row [<-|[<-|[]]]; eauto. }
  unfold bt_fit. assert (C : categorical_features (f_vars (ex_cfg vt)) = Ok []) by reflexivity. rewrite C. cbn [bind]. change (negb (Nat.eqb (List.length ex_X) (List.length ex_y)) || Nat.eqb (List.length ex_y) 0) with false.
  assert (D : dataset_membership ex_X (f_vars (ex_cfg vt)) = Ok [("x", [("low", [1; 0]); ("high", [0; 1])])]) by qex. cbv iota. rewrite D. cbn [bind].
  change (fuel_for (initial_sets (f_vars (ex_cfg vt)))) with 3%nat.
  change (initial_sets (f_vars (ex_cfg vt))) with [("x", ["low"; "high"])].
  change (repeat 1 (List.length ex_y)) with [1; 1]. cbn [fresh_broot b_leaf b_children b_class b_level b_value b_var b_ignored].
  remember [("x", [("low", [1; 0]); ("high", [0; 1])])] as XM.
  assert (M1 : max_split no_sort [] [] [1; 1] [] [("x", ["low"; "high"])] XM ex_y = Ok ([[0; 0]; [0; 0]], Some (mkSplit "x" 1%R [1; 0] [0; 1] ["low"] ["high"] 0 1))).
  { subst XM. unfold max_split. assert (B : binary_partitions no_sort [] [("x", ["low"; "high"])] [("x", [("low", [1; 0]); ("high", [0; 1])])] ex_y = Ok [("x", ["low"], ["high"])]) by reflexivity.
    rewrite B. cbn [bind foldM]. unfold score_partition at 1. cbn [fst snd].
    assert (S1 : score_side [] [1; 1] [] [("x", [("low", [1; 0]); ("high", [0; 1])])] (List.length ex_y) "x" ["low"] = Ok ([[0; 0]], [1; 0], 0%nat)) by qex.
    rewrite S1. cbn [bind].
    assert (S2 : score_side [[0; 0]] [1; 1] [] [("x", [("low", [1; 0]); ("high", [0; 1])])] (List.length ex_y) "x" ["high"] = Ok ([[0; 0]; [0; 0]], [0; 1], 1%nat)) by qex.
    rewrite S2. cbn [bind]. unfold split_gain. assert (Q : qeqb (qsum [1; 1]) 0 = false) by reflexivity. rewrite Q. cbn [bind]. unfold ex_y. rewrite entropy_two by discriminate.
    rewrite !entropy_pure by (auto; qlra).
    replace (1 - (qr (qsum [1; 0]%Qc) * 0 + qr (qsum [0; 1]%Qc) * 0) / qr (qsum [1; 1]%Qc))%R with 1%R by (unfold Rdiv; ring).
    cbn [best_gain snd]. assert (L : Rltb 0 1 = true) by (apply Rltb_lt; lra). rewrite L. reflexivity. }
  assert (P : forall mu lv v, max_split no_sort [] [[0; 0]; [0; 0]] mu lv [("x", [v])] XM ex_y = Ok ([[0; 0]; [0; 0]], None)) by reflexivity.
  assert (ST : stop_met (ex_cfg vt) 1%R (masked [1; 1] ex_y) 0 = false).
  { unfold stop_met. assert (L : Rltb 1 (f_threshold (ex_cfg vt)) = false) by (apply Rltb_ge; cbn; lra). rewrite L. reflexivity. }
  assert (G0 : get_class_value [1; 0] ex_y = Ok [(0%Z, 0); (1%Z, 1)]) by qex.
  assert (G1 : get_class_value [0; 1] ex_y = Ok [(0%Z, 1); (1%Z, 0)]) by qex.
  assert (T0 : stop_met (ex_cfg vt) (best_gain None) (masked [1; 0] ex_y) 1 = true) by reflexivity.
  assert (T1 : stop_met (ex_cfg vt) (best_gain None) (masked [0; 1] ex_y) 1 = true) by reflexivity.
  cbn [bfit b_mu b_ignored]. rewrite M1. cbn [bind]. change (best_gain (Some (mkSplit "x" 1%R [1; 0] [0; 1] ["low"] ["high"] 0 1))) with 1%R. rewrite ST.
  cbn [s_att s_left s_right s_lmu s_rmu s_lign s_rign].
  change (dget "x" (f_positions (f_vars (ex_cfg vt)))) with (Some 0%nat). cbn [ret_opt bind].
  change (nth_error (f_vars (ex_cfg vt)) 0) with (Some (ex_v "x")). cbn [ret_opt bind]. cbv zeta.
  change (dict_of (map (fun js => (fs_name (snd js), fst js)) (enumerate (fv_sets (ex_v "x"))))) with [("low", 0%nat); ("high", 1%nat)].
  change (mapM (fun n => ret_opt KeyError (dget n [("low", 0%nat); ("high", 1%nat)])) ["low"]) with (@Ok (list nat) [0%nat]).
  change (mapM (fun n => ret_opt KeyError (dget n [("low", 0%nat); ("high", 1%nat)])) ["high"]) with (@Ok (list nat) [1%nat]).
  cbn [bind].
  change (update_ignored [[0; 0]; [0; 0]] [] "x" 0) with ([[0; 0]; [0; 0]], [("x", 0%nat)]). cbv iota.
  change (dget "x" [("x", ["low"; "high"])]) with (Some ["low"; "high"]). cbn [ret_opt bind].
  change (qltb 0 (qsum [1; 0])) with true. cbv iota.
  change (dset "x" (filter (fun x => memb x ["low"]) ["low"; "high"]) [("x", ["low"; "high"])]) with [("x", ["low"])].
  change (0 + 1)%Z with 1%Z. rewrite P. cbn [bind]. rewrite T0, G0. cbn [bind fst snd].
  change (update_ignored [[0; 0]; [0; 0]] [] "x" 1) with ([[0; 0]; [0; 0]], [("x", 1%nat)]). cbv iota.
  change (qltb 0 (qsum [0; 1])) with true. cbv iota.
  change (dset "x" (filter (fun x => memb x ["high"]) ["low"; "high"]) [("x", ["low"; "high"])]) with [("x", ["high"])].
  rewrite P. cbn [bind]. rewrite T1, G1. cbn [bind fst snd app b_children b_class b_value b_var]. reflexivity.
Qed.

(** ** C31 *)
Theorem C31_split : forall cfg psort X y t p n, btrained cfg psort X y t -> bnode_at t p n -> b_leaf n = false ->
  exists a v g1 g2, nth_error (f_vars cfg) a = Some v /\
    map b_value (b_children n) = [Some (a, g1); Some (a, g2)] /\ Forall (fun c => b_var c = Some v) (b_children n) /\
    g1 <> [] /\ g2 <> [] /\ Permutation (g1 ++ g2) (available (f_vars cfg) p a) /\
    (continuous v -> exists k m1 m2, g1 = seq k m1 /\ g2 = seq (k + m1) m2).
Proof.
  intros cfg psort X y t p n T H L. destruct (btrained_node _ _ _ _ _ _ _ T H) as (PO & (cats & HC & [[node [F Hc]]|(mu & l & v & cmu & cign & -> & _)]) & _); [|discriminate].
  assert (HC' := HC). destruct HC' as (Hsort & Hnames & Hlen & Hy & Hcats).
  destruct (@bfitted_cases cfg psort X y cats Hsort Hnames Hlen Hy Hcats _ _ _ F) as (_ & _ & [->|(a & v & g1 & g2 & c1 & c2 & (Hv & N1 & N2 & Pm & C) & MD & S1 & S2 & ->)]); [discriminate|].
  exists a, v, g1, g2. split; [assumption|].
  assert (K : forall g c, side cfg psort X y cats p (b_mu node) (a, g) v c -> b_value c = Some (a, g) /\ b_var c = Some v).
  { intros g c (cmu & cign & MC & [[P F']|[P ->]]); [|split; reflexivity]. exact (@bfitted_value _ _ _ _ _ HC _ _ _ F'). }
  destruct (K _ _ S1) as [K1 K2]. destruct (K _ _ S2) as [K3 K4]. unfold bsplit_result. cbn [b_children]. rewrite Hc. cbn [app map]. rewrite K1, K3.
  split; [reflexivity|]. split; [auto|]. split; [assumption|]. split; [assumption|]. split; [assumption|].
  intro Cv. specialize (C Cv). destruct (@path_contiguous cfg p a v PO Hv Cv) as (k & m & E). cbv zeta in C, E. unfold available in *. rewrite E in C.
  destruct (@seq_app_inv _ _ _ _ C) as [A B]. exists k, (List.length g1), (List.length g2). auto.
Qed.
Print Assumptions C31_split.

Theorem C31_nested : forall cfg psort X y t p a g q g' r n, btrained cfg psort X y t ->
  bnode_at t (p ++ (a, g) :: q ++ (a, g') :: r) n -> incl g' g /\ (List.length g' < List.length g)%nat /\ NoDup g.
Proof.
  intros cfg psort X y t p a g q g' r n T H. destruct (btrained_node _ _ _ _ _ _ _ T H) as (PO & _).
  destruct (@path_strict cfg _ _ _ _ _ _ PO) as [A B]. split; [assumption|]. split; [assumption|].
  destruct (@path_valid cfg _ PO a g) as (_ & _ & N & _); [|exact N]. apply in_or_app. right. left. reflexivity.
Qed.
Print Assumptions C31_nested.

Example C31_instance : bnode_at ex_btree [] ex_btree /\ b_leaf ex_btree = false /\ available [ex_v "x"] [] 0 = [0; 1]%nat /\
  map b_value (b_children ex_btree) = [Some (0, [0]); Some (0, [1])]%nat.
Proof. split; [constructor|]. repeat split; reflexivity. Qed.

(** ** C32 *)
Theorem C32_training_total : forall cfg psort X y,
  (forall l, Permutation (psort l) l) -> distinct_names (f_vars cfg) -> List.length X = List.length y -> y <> [] ->
  (forall v, In v (f_vars cfg) -> fv_sets v <> []) -> readable (f_vars cfg) X -> wide (f_vars cfg) X -> (0 < f_threshold cfg)%R ->
  exists h t, bt_fit cfg psort fresh_broot X y = Ok (h, t).
Proof.
  intros cfg psort X y Hp Hn HL Hy Hs HR HW Hth. destruct (@bt_fit_eq cfg psort X y Hn HL Hy Hs HR HW) as (cats & _ & Hc & ->).
  apply (@bfit_total cfg psort X y cats Hp Hn HL Hy Hc _ Hth); [exact (@broot_inv X y HL Hy)|apply Nat.lt_succ_diag_r].
Qed.
Print Assumptions C32_training_total.

(** with another threshold the only exceptions are those of looking up "no feature" *)
Theorem C32_nonpositive_threshold : forall cfg psort X y e,
  (forall l, Permutation (psort l) l) -> distinct_names (f_vars cfg) -> List.length X = List.length y -> y <> [] ->
  (forall v, In v (f_vars cfg) -> fv_sets v <> []) -> readable (f_vars cfg) X -> wide (f_vars cfg) X ->
  bt_fit cfg psort fresh_broot X y = Err e -> (f_threshold cfg <= 0)%R /\ (e = KeyError \/ e = IndexError).
Proof.
  intros cfg psort X y e Hp Hn HL Hy Hs HR HW. destruct (@bt_fit_eq cfg psort X y Hn HL Hy Hs HR HW) as (cats & _ & Hc & ->). intro H.
  apply (@bfit_fails cfg psort X y cats Hp Hn HL Hy Hc _ _ _ _ _ (@broot_inv X y HL Hy) (Nat.lt_succ_diag_r _) H).
Qed.
Print Assumptions C32_nonpositive_threshold.

Theorem C32_leaf_distribution : forall cfg psort X y t p n, btrained cfg psort X y t -> bnode_at t p n -> b_leaf n = true ->
  exists cv, b_class n = Some cv /\ distribution y cv.
Proof.
  intros cfg psort X y t p n T H L. destruct (btrained_wf _ _ _ _ _ T) as [W _].
  assert (Hin : In (p, n) (bleaves t)) by (apply (@bleaves_node_at _ _ _ W); auto).
  destruct (@bwf_leaves _ _ _ W _ _ Hin) as ((d & Ed & K) & _). exists d. split; [assumption|]. apply cv_distribution. assumption.
Qed.
Print Assumptions C32_leaf_distribution.

Theorem C32_depth : forall cfg psort X y t p n, btrained cfg psort X y t -> bnode_at t p n ->
  (Z.of_nat (List.length p) <= Z.max 0 (f_max_depth cfg))%Z.
Proof. intros cfg psort X y t p n T H. destruct (btrained_node _ _ _ _ _ _ _ T H) as (_ & _ & A). assumption. Qed.
Print Assumptions C32_depth.

Example C32_instance : forall vt, (0 < f_threshold (ex_cfg vt))%R /\ (exists n, bnode_at ex_btree [(0, [0])]%nat n /\ b_leaf n = true /\ bleaf_weight n 1 = 1).
Proof.
  intro vt. split; [cbn; lra|]. eexists. split; [eapply bat_child; [reflexivity|left; reflexivity|reflexivity|constructor]|]. split; reflexivity.
Qed.

(** ** C33 *)
Lemma side_degree_sub vars row a g g' : NoDup g -> incl g g' -> side_degree vars row (a, g) <= side_degree vars row (a, g').
Proof.
  unfold side_degree. cbn [fst snd]. revert g'. induction g as [|i g IH]; intros g' N I.
  - cbn [map]. rewrite qsum_nil. apply qsum_nonneg. apply Forall_forall. intros x Hx. apply in_map_iff in Hx. destruct Hx as [j [<- _]]. apply lit_degree_01.
  - inversion N as [|? ? N1 N2]; subst. destruct (in_split i g') as [l1 [l2 ->]]; [apply I; left; reflexivity|].
    assert (I' : incl g (l1 ++ l2)).
    { intros x Hx. assert (Hx' := I x (or_intror Hx)). apply in_app_or in Hx'. apply in_or_app. destruct Hx' as [Hx'|[->|Hx']]; auto. contradiction. }
    specialize (IH _ N2 I'). rewrite map_app in IH |- *. cbn [map]. rewrite qsum_app in IH |- *. rewrite !qsum_cons.
    remember (qsum (map (fun i0 => lit_degree vars row (a, i0)) g)) as z1. remember (qsum (map (fun i0 => lit_degree vars row (a, i0)) l1)) as z2.
    remember (qsum (map (fun i0 => lit_degree vars row (a, i0)) l2)) as z3. remember (lit_degree vars row (a, i)) as z4. clear - IH. qlra.
Qed.
(** the degrees of a row in the sets of each variable add up to at most 1 *)
Definition partitioned (vars : list fvar) (row : list cell) : Prop :=
  forall a, side_degree vars row (a, seq 0 (nsets vars a)) <= 1.
Lemma partitioned_path cfg row p : partitioned (f_vars cfg) row -> path_ok cfg p -> forall l, In l p -> side_degree (f_vars cfg) row l <= 1.
Proof.
  intros Q PO [a g] I. destruct (@path_valid cfg p PO a g I) as (v & Hv & N & _ & Hi). eapply Qcle_trans; [|exact (Q a)].
  apply side_degree_sub; [assumption|]. intros i Ii. unfold nsets. rewrite Hv. apply in_seq. destruct (Hi i Ii) as [s Es].
  assert (i < List.length (fv_sets v))%nat by (apply nth_error_Some; congruence). lia.
Qed.
Lemma path_nested cfg p : path_ok cfg p -> nested p.
Proof.
  intros PO a g g' I J. apply in_split in I. destruct I as [l1 [l2 E]].
  rewrite E in J. apply in_app_or in J. destruct J as [J|[J|J]].
  - apply in_split in J. destruct J as [k1 [k2 ->]]. rewrite <- app_assoc in E. cbn [app] in E. rewrite E in PO. left. exact (proj1 (@path_strict cfg _ _ _ _ _ _ PO)).
  - injection J as ->. left. apply incl_refl.
  - apply in_split in J. destruct J as [k1 [k2 ->]]. rewrite E in PO. right. exact (proj1 (@path_strict cfg _ _ _ _ _ _ PO)).
Qed.
Lemma brules_votes cfg psort X y t row m simp : btrained cfg psort X y t -> b_leaf t = false ->
  row_membership (f_vars cfg) row m -> (forall f v d, knows m f v d -> 0 <= d) -> partitioned (f_vars cfg) row ->
  exists rules ms, btree_rules t 0 simp = Ok rules /\ Forall2 (fun r x => matching_multi m r = Ok x) rules ms /\
    (forall c, bsupport rules ms c = qsum (map (fun pl => bleaf_weight (snd pl) c * bactivation qmin (f_vars cfg) row (fst pl)) (bleaves t))) /\
    (forall r, In r rules -> In (r_cons r) y) /\ rules <> [].
Proof.
  intros T L R K Q. destruct (btrained_wf _ _ _ _ _ T) as [W V].
  destruct (@brules_support_gen (f_vars cfg) (zunique y) row m (fun r => if simp then simplify (@List.length string) r else r) (zunique_NoDup y)) with (L := bleaves t) as (ms & A & B).
  - intro r. destruct simp; split; reflexivity.
  - intros [p n] Hin. cbn [fst snd]. destruct (@bwf_leaves _ _ _ W _ _ Hin) as (D & _). split; [assumption|]. intros c w.
    apply (@bleaves_node_at _ _ _ W) in Hin. destruct Hin as [Hn Hl]. destruct (btrained_node _ _ _ _ _ _ _ T Hn) as (PO & _).
    assert (Np : p <> []) by (intros ->; inversion Hn; subst; congruence).
    assert (M : matching_multi m (mkR (map (glit_name (f_vars cfg)) p) c w) = Ok (bactivation qmin (f_vars cfg) row p)).
    { apply matching_bactivation; [assumption|assumption|exact (@path_valid cfg p PO)|]. destruct p as [|l p]; [congruence|]. exists l. split; [left; reflexivity|].
      exact (@partitioned_path cfg row _ Q PO l (or_introl eq_refl)). }
    destruct simp; [|exact M]. destruct T as (_ & (N1 & N2) & _).
    rewrite (@simplified_matching (f_vars cfg) row m p c w N1 N2 R K (@path_valid cfg p PO) (@path_nested cfg p PO)). exact M.
  - do 2 eexists. split; [apply (@btree_rules_spec _ _ 0 simp t W V)|]. split; [exact A|]. split; [exact B|]. split.
    + intros r Hr. apply in_map_iff in Hr. destruct Hr as [r0 [<- Hr]]. assert (E : r_cons (if simp then simplify (@List.length string) r0 else r0) = r_cons r0) by (destruct simp; reflexivity).
      rewrite E. apply in_concat in Hr. destruct Hr as [l [Hl Hr]]. apply in_map_iff in Hl. destruct Hl as [[p n] [<- Hin]].
      destruct (@bwf_leaves _ _ _ W _ _ Hin) as ((d & Ed & Kd & _) & _). unfold bleaf_rules in Hr. cbn [snd] in Hr. rewrite Ed in Hr.
      apply in_map_iff in Hr. destruct Hr as [[c w] [<- Hr]]. apply filter_In in Hr. cbn [r_cons fst]. apply zunique_In. rewrite <- Kd. exact (in_map fst _ _ (proj1 Hr)).
    + assert (NE := @bwf_leaves_nonempty _ _ _ W). destruct (bleaves t) as [|[p n] ls] eqn:E; [congruence|].
      destruct (@bwf_leaves _ _ _ W p n) as ((d & Ed & Kd & W01 & S) & _); [rewrite E; left; reflexivity|]. cbn [map List.concat]. unfold bleaf_rules at 1. cbn [snd]. rewrite Ed.
      assert (X0 : exists kw, In kw d /\ qltb 0 (snd kw) = true).
      { destruct (existsb (fun kw => qltb 0 (snd kw)) d) eqn:EB; [apply existsb_exists in EB; exact EB|]. exfalso.
        assert (Z0 : qsum (map snd d) = 0); [|rewrite Z0 in S; discriminate]. clear - EB W01. induction d as [|[c w] d IH]; [reflexivity|]. cbn [existsb snd] in EB. apply orb_false_iff in EB. destruct EB as [E1 E2].
        cbn [map snd]. rewrite qsum_cons, IH; [|intros; apply (W01 c0 w0); right; assumption|assumption]. rewrite qltb_ge in E1. destruct (W01 c w (or_introl eq_refl)) as [W0 _].
        assert (w = 0) by (apply Qcle_antisym; assumption). subst. ring. }
      destruct X0 as [kw [I1 I2]]. assert (I3 : In kw (filter (fun kw => qltb 0 (snd kw)) d)) by (apply filter_In; auto).
      destruct (filter (fun kw => qltb 0 (snd kw)) d); [destruct I3|discriminate].
Qed.
Lemma bactivation_nonneg vars row p : 0 <= bactivation qmin vars row p.
Proof.
  unfold bactivation. assert (G : forall z, 0 <= z -> 0 <= fold_left (fun acc l => qmin acc (side_degree vars row l)) p z); [|apply G; qlra].
  induction p as [|l p IH]; intros z Hz; [assumption|]. cbn [fold_left]. apply IH. apply qmin_glb; [assumption|].
  apply qsum_nonneg. apply Forall_forall. intros x Hx. apply in_map_iff in Hx. destruct Hx as [j [<- _]]. apply lit_degree_01.
Qed.
Lemma bsupport_nonneg classes vars t row c : bwf vars classes t -> NoDup classes ->
  0 <= qsum (map (fun pl => bleaf_weight (snd pl) c * bactivation qmin vars row (fst pl)) (bleaves t)).
Proof.
  intros W N. apply qsum_nonneg. apply Forall_forall. intros x Hx. apply in_map_iff in Hx. destruct Hx as [[p n] [<- Hin]]. cbn [fst snd].
  apply Qcmult_nonneg; [|apply bactivation_nonneg]. destruct (@bwf_leaves _ _ _ W _ _ Hin) as ((d & Ed & Kd & W01 & S) & _). unfold bleaf_weight. rewrite Ed.
  destruct (dget c d) as [w|] eqn:E; [|apply Qcle_refl]. apply dget_In in E. apply (W01 c w E).
Qed.

Theorem C33_votes_equal_rule_totals : forall cfg psort X y t row m simp, btrained cfg psort X y t -> b_leaf t = false ->
  f_tnorm cfg = qmin -> f_voting cfg = AggVote ->
  row_membership (f_vars cfg) row m -> (forall f v d, knows m f v d -> 0 <= d) -> partitioned (f_vars cfg) row ->
  exists rules ms, btree_rules t 0 simp = Ok rules /\ Forall2 (fun r x => matching_multi m r = Ok x) rules ms /\
    forall c, bsupport rules ms c = brow_support cfg t row c.
Proof.
  intros cfg psort X y t row m simp T L Ht Hv R K Q. destruct (brules_votes cfg psort X y t row m simp T L R K Q) as (rules & ms & A & B & C & _).
  exists rules, ms. split; [assumption|]. split; [assumption|]. intro c. rewrite C. unfold brow_support. rewrite Hv, Ht. reflexivity.
Qed.
Print Assumptions C33_votes_equal_rule_totals.

(** predict returns, for each row, the least class of maximal support *)
Theorem C33_predict_maximal_vote : forall cfg psort X y t X', btrained cfg psort X y t -> readable (f_vars cfg) X' ->
  exists ps, bpredict cfg t X' = Ok ps /\ Forall2 (fun row c => best_class (zunique y) (brow_support cfg t row) c) X' ps.
Proof.
  intros cfg psort X y t X' T R. destruct (btrained_wf _ _ _ _ _ T) as [W V].
  exact (@bpredict_spec cfg t (zunique y) X' W V (zunique_sorted y) (zunique_NoDup y) (btrained_y _ _ _ _ _ T) R).
Qed.
Print Assumptions C33_predict_maximal_vote.

(** the leaves counted by the vote are exactly the leaf nodes of the tree *)
Theorem C33_leaves_are_leaf_nodes : forall cfg psort X y t p n, btrained cfg psort X y t ->
  (In (p, n) (bleaves t) <-> bnode_at t p n /\ b_leaf n = true).
Proof. intros cfg psort X y t p n T. destruct (btrained_wf _ _ _ _ _ T) as [W _]. exact (@bleaves_node_at _ _ _ W p n). Qed.
Print Assumptions C33_leaves_are_leaf_nodes.

Theorem C33_strict_winner : forall cfg psort X y t row m c simp rules, btrained cfg psort X y t -> b_leaf t = false ->
  f_tnorm cfg = qmin -> f_voting cfg = AggVote -> readable (f_vars cfg) [row] ->
  row_membership (f_vars cfg) row m -> (forall f v d, knows m f v d -> 0 <= d) -> partitioned (f_vars cfg) row ->
  btree_rules t 0 simp = Ok rules -> In c y ->
  (forall c', In c' y -> c' <> c -> brow_support cfg t row c' < brow_support cfg t row c) ->
  bpredict cfg t [row] = Ok [c] /\ weighted_vote_multi rules m = Ok c.
Proof.
  intros cfg psort X y t row m c simp rules T L Ht Hv HR R K Q HT Hc Hw. split.
  - destruct (C33_predict_maximal_vote cfg psort X y t [row] T HR) as [ps [E F]]. rewrite E.
    inversion F as [|? c' ? qs B F']; subst. inversion F'; subst. f_equal. f_equal. destruct B as [B1 B2]. destruct (Z.eq_dec c' c) as [|D]; [assumption|]. exfalso.
    rewrite zunique_In in B1. specialize (Hw c' B1 D). destruct (B2 c) as [B3 _]; [apply zunique_In; assumption|]. qlra.
  - destruct (brules_votes cfg psort X y t row m simp T L R K Q) as (rules' & ms & A & B & C & D & E). rewrite HT in A. injection A as <-.
    assert (SU : forall c, bsupport rules ms c = brow_support cfg t row c) by (intro k; rewrite C; unfold brow_support; rewrite Hv, Ht; reflexivity).
    assert (P : forall c, 0 <= brow_support cfg t row c).
    { intro k. rewrite <- SU, C. destruct (btrained_wf _ _ _ _ _ T) as [W _]. eapply bsupport_nonneg; [exact W|apply zunique_NoDup]. }
    assert (Ic : In c (map (@r_cons (list string)) rules)).
    { destruct (in_dec Z.eq_dec c (map (@r_cons (list string)) rules)) as [I|I]; [assumption|]. exfalso.
      assert (Z0 : bsupport rules ms c = 0).
      { unfold bsupport. clear - I. revert ms. induction rules as [|r rules IH]; intros [|x ms]; cbn [map2]; try reflexivity.
        rewrite qsum_cons, IH by (intro; apply I; right; assumption). destruct (Z.eqb_spec (r_cons r) c) as [E|E]; [exfalso; apply I; left; exact E|ring]. }
      destruct rules as [|r rules]; [congruence|]. assert (Nr : r_cons r <> c) by (intro; apply I; left; assumption).
      specialize (Hw _ (D r (or_introl eq_refl)) Nr). rewrite <- (SU c), Z0 in Hw. specialize (P (r_cons r)). qlra. }
    apply (@bstrict_winner rules ms m (brow_support cfg t row) c B SU P Ic). intros r Hr Nr. apply Hw; [apply D; assumption|assumption].
Qed.
Print Assumptions C33_strict_winner.

(** a tree that is a single leaf predicts, but its rules have empty antecedents *)
Theorem C33_root_leaf_rules_fail : forall cfg psort X y t m simp rules, btrained cfg psort X y t -> b_leaf t = true ->
  btree_rules t 0 simp = Ok rules -> rules <> [] /\ weighted_vote_multi rules m = Err ValueError.
Proof.
  intros cfg psort X y t m simp rules T L HT. destruct (btrained_wf _ _ _ _ _ T) as [W V]. rewrite (@btree_rules_spec _ _ 0 simp t W V) in HT.
  destruct t as [lf cs cv lv va vr mu ig]. cbn in L. subst lf. cbn [bleaves map List.concat] in HT. rewrite app_nil_r in HT. injection HT as <-.
  destruct W as [_ (d & -> & K & W01 & S)]. unfold bleaf_rules. cbn [fst snd b_class map app].
  assert (F : filter (fun kw => qltb 0 (snd kw)) d <> []).
  { intro F. assert (Z : qsum (map snd d) = 0).
    { apply qsum_map_zero. intros [c w] Hw. destruct (W01 c w Hw) as [W0 _]. destruct (qltb 0 w) eqn:Bw.
      - assert (H : In (c, w) (filter (fun kw => qltb 0 (snd kw)) d)) by (apply filter_In; auto). rewrite F in H. destruct H.
      - rewrite qltb_ge in Bw. apply Qcle_antisym; assumption. }
    rewrite Z in S. discriminate. }
  destruct (filter _ d) as [|kw l]; [congruence|]. split; [discriminate|]. cbn [map]. destruct simp; reflexivity.
Qed.
Print Assumptions C33_root_leaf_rules_fail.

Example C33_instance : b_leaf ex_btree = false /\ partitioned [ex_v "x"] [CNum (qz 2)] /\
  row_membership [ex_v "x"] [CNum (qz 2)] [("x", [("low", qc 4 5); ("high", qc 1 5)])] /\
  brow_support (ex_cfg AggVote) ex_btree [CNum (qz 2)] 1 = qc 4 5 /\ brow_support (ex_cfg AggVote) ex_btree [CNum (qz 2)] 0 = qc 1 5 /\
  bpredict (ex_cfg AggVote) ex_btree [[CNum (qz 2)]; [CNum (qz 8)]] = Ok [1; 0]%Z /\
  btree_rules ex_btree 0 true = Ok [mkR [("x", ["low"])] 1%Z 1; mkR [("x", ["high"])] 0%Z 1].
Proof.
  split; [reflexivity|]. split; [|split; [|split; [qex|split; [qex|split; [reflexivity|qex]]]]].
  - intros [|[|a]]; [|unfold side_degree, nsets; cbn; discriminate|unfold side_degree, nsets; cbn; destruct a; discriminate].
    assert (E : side_degree [ex_v "x"] [CNum (qz 2)] (0%nat, seq 0 (nsets [ex_v "x"] 0)) = 1) by qex. rewrite E. apply Qcle_refl.
  - intros a v i s Hv Hs. destruct a as [|[|a]]; [|discriminate|discriminate]. injection Hv as <-.
    destruct i as [|[|i]]; [| |destruct i; discriminate]; injection Hs as <-.
    + exists [("low", qc 4 5); ("high", qc 1 5)]. split; [reflexivity|]. cbn [dget fs_name c_name]. f_equal. qex.
    + exists [("low", qc 4 5); ("high", qc 1 5)]. split; [reflexivity|]. assert (E : eqb "high" "low" = false) by reflexivity. cbn [dget fs_name c_name]. rewrite E, eqb_refl. f_equal. qex.
Qed.

(** ** C35 (binary trees): verbose is taken for the threshold, simplify reaches simplify *)
Theorem C35_fbdt_threshold_zero : forall cfg psort X y t simp, btrained cfg psort X y t ->
  exists rules, to_rule_based_system_b t false simp = Ok rules /\
    forall r, In r rules <-> exists p n c w, bnode_at t p n /\ b_leaf n = true /\ 0 < w /\ w = bleaf_weight n c /\ In c y /\
      r = (if simp then simplify (@List.length string) (mkR (map (glit_name (f_vars cfg)) p) c w) else mkR (map (glit_name (f_vars cfg)) p) c w).
Proof.
  intros cfg psort X y t simp T. destruct (btrained_wf _ _ _ _ _ T) as [W V]. unfold to_rule_based_system_b.
  rewrite (@btree_rules_spec _ _ 0 simp t W V). eexists. split; [reflexivity|]. intro r. rewrite in_map_iff. split.
  - intros [r0 [<- Hr]]. apply in_concat in Hr. destruct Hr as [l [Hl Hr]]. apply in_map_iff in Hl. destruct Hl as [[p n] [<- Hin]]. destruct (@bwf_leaves _ _ _ W _ _ Hin) as ((d & Ed & K & _) & _).
    unfold bleaf_rules in Hr. cbn [fst snd app] in Hr. rewrite Ed in Hr. apply in_map_iff in Hr. destruct Hr as [[c w] [<- Hr]].
    apply filter_In in Hr. destruct Hr as [Hr Hw]. cbn [fst snd] in *. rewrite qltb_lt in Hw. apply (@bleaves_node_at _ _ _ W) in Hin.
    exists p, n, c, w. split; [apply Hin|]. split; [apply Hin|]. split; [assumption|]. split; [|split; [|reflexivity]].
    + unfold bleaf_weight. rewrite Ed. rewrite (@dget_nodup Z Qc _ c w d); [reflexivity|unfold dkeys; rewrite K; apply zunique_NoDup|assumption].
    + apply zunique_In. rewrite <- K. exact (in_map fst _ _ Hr).
  - intros (p & n & c & w & Hn & L & Hw & Ew & Hc & ->). assert (Hin : In (p, n) (bleaves t)) by (apply (@bleaves_node_at _ _ _ W); auto).
    eexists. split; [reflexivity|]. apply in_concat. eexists. split; [apply in_map; exact Hin|]. destruct (@bwf_leaves _ _ _ W _ _ Hin) as ((d & Ed & K & _) & _).
    unfold bleaf_rules. cbn [fst snd app]. rewrite Ed. apply in_map_iff. exists (c, w). split; [reflexivity|]. apply filter_In. split; [|apply qltb_lt; assumption].
    unfold bleaf_weight in Ew. rewrite Ed in Ew. rewrite <- zunique_In, <- K in Hc. apply dget_ex in Hc. destruct Hc as [w' Hw']. rewrite Hw' in Ew. subst w'. apply dget_In. assumption.
Qed.
Print Assumptions C35_fbdt_threshold_zero.

Theorem C35_fbdt_verbose_returns_nothing : forall cfg psort X y t simp, btrained cfg psort X y t ->
  to_rule_based_system_b t true simp = Ok [].
Proof.
  intros cfg psort X y t simp T. destruct (btrained_wf _ _ _ _ _ T) as [W V]. unfold to_rule_based_system_b. rewrite (@btree_rules_spec _ _ 1 simp t W V). f_equal.
  assert (G : forall L, incl L (bleaves t) -> List.concat (map (bleaf_rules (f_vars cfg) [] 1) L) = []).
  { induction L as [|[p n] L IH]; intro I; [reflexivity|]. cbn [map List.concat]. rewrite IH by (intros z Hz; apply I; right; assumption). rewrite app_nil_r.
    destruct (@bwf_leaves _ _ _ W p n) as ((d & Ed & _ & W01 & _) & _); [apply I; left; reflexivity|]. unfold bleaf_rules. cbn [fst snd]. rewrite Ed.
    replace (filter (fun kw => qltb 1 (snd kw)) d) with (@nil (Z * Qc)); [reflexivity|]. symmetry.
    clear - W01. induction d as [|[c w] d IH]; [reflexivity|]. cbn [filter snd]. destruct (W01 c w (or_introl eq_refl)) as [_ H].
    rewrite (proj2 (qltb_ge 1 w) H). apply IH. intros; apply (W01 c0 w0). right. assumption. }
  rewrite G by apply incl_refl. reflexivity.
Qed.
Print Assumptions C35_fbdt_verbose_returns_nothing.

Example C35_fbdt_instance : exists rules, to_rule_based_system_b ex_btree false false = Ok rules /\ List.length rules = 2%nat.
Proof. eexists. split; [reflexivity|reflexivity]. Qed.

(** ** C40 (binary trees) *)
Theorem C40_fbdt_score : forall cfg t X y s, bt_score cfg t X y = Ok s ->
  exists ps, bpredict cfg t X = Ok ps /\ List.length ps = List.length y /\
    s = qn (List.length (filter (fun p => Z.eqb (fst p) (snd p)) (combine ps y))) / qn (List.length y) /\
    0 <= s /\ s <= 1 /\ (s = 1 <-> ps = y) /\ (s = 0 <-> forall i c, nth_error y i = Some c -> nth_error ps i <> Some c).
Proof.
  intros cfg t X y s H. unfold bt_score in H. destruct (Nat.eqb_spec (List.length X) (List.length y)) as [L|L]; cbn [negb orb] in H; [|discriminate].
  destruct (Nat.eqb_spec (List.length y) 0) as [L0|L0]; [discriminate|]. destruct (bpredict cfg t X) as [ps|] eqn:E; cbn [bind] in H; [|discriminate].
  injection H as <-. assert (Lp := bpredict_length _ _ _ E). exists ps. split; [reflexivity|]. split; [congruence|]. split; [reflexivity|].
  apply score_spec; [congruence|]. intros ->. apply L0. reflexivity.
Qed.
Print Assumptions C40_fbdt_score.

Example C40_fbdt_instance : bt_score (ex_cfg AggVote) ex_btree [[CNum (qz 2)]; [CNum (qz 8)]; [CNum 0]] [1; 1; 1]%Z = Ok (qc 2 3).
Proof. qex. Qed.
