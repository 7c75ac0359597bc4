(** * Property C34: the 'ignored' arrays of binary fuzzy decision trees *)
From Verif Require Import Prelude M_Fuzzy M_Discretize M_Rule M_FDT M_FBDT S_Rule S_FDT S_FBDT S_FBDTPrivate P_FuzzySet P_FuzzyVar P_Entropy P_Rule P_FDT P_FDT2 P_FDT3 P_FDT4 P_FBDT P_FBDT2 P_FBDT3 P_FBDT4 P_FBDT5 P_Counterfactual Properties_FDT Properties_FBDT.
From Coq Require Import Reals Lra.
Open Scope string_scope.
Open Scope list_scope.
Open Scope Qc_scope.

(** Sharing is harmless: training gives the tree that training with a private copy of the marks in every node gives, and
    the same exceptions.  In particular growing a left subtree never changes what its right sibling is grown from. *)
Theorem C34_sharing_is_not_observable : forall cfg psort X y, (forall l, Permutation (psort l) l) -> distinct_names (f_vars cfg) ->
  match vt_fit cfg psort X y with
  | Err e => bt_fit cfg psort fresh_broot X y = Err e
  | Ok t' => exists h t, bt_fit cfg psort fresh_broot X y = Ok (h, t) /\ erase t = t'
  end.
Proof. exact fit_private. Qed.
Print Assumptions C34_sharing_is_not_observable.

(** Marking within a node is observable.  [row] is training row [j]; [L] and [R] are its degrees in the two groups of sets
    a node is split into. *)
Theorem C34_first_use_shares_exactly : forall cfg psort X y t p n, btrained cfg psort X y t -> bnode_at t p n -> b_leaf n = false ->
  exists a g1 g2 c1 c2, b_children n = [c1; c2] /\ b_value c1 = Some (a, g1) /\ b_value c2 = Some (a, g2) /\
    (~ In a (map fst p) -> forall j row, nth_error X j = Some row ->
       nth j (b_mu c1) 0 = qmin (nth j (b_mu n) 0) (side_degree (f_vars cfg) row (a, g1)) /\
       nth j (b_mu c2) 0 = qmin (nth j (b_mu n) 0) (side_degree (f_vars cfg) row (a, g2))).
Proof.
  intros cfg psort X y t p n T N Lf. destruct (@trained_shares cfg psort X y t p n T N Lf) as (HL & M1 & ML & a & v & g1 & g2 & c1 & c2 & SO & Ch & V1 & V2 & (SH & _)).
  exists a, g1, g2, c1, c2. split; [assumption|]. split; [assumption|]. split; [assumption|]. intros NI j row E. destruct (SH NI) as (-> & ->).
  assert (Lj : (j < List.length X)%nat) by (apply nth_error_Some; congruence). assert (ER : nth j X [] = row) by (apply nth_error_nth with (d := []) in E; assumption).
  assert (K : forall g, nth j (side_sum cfg X a g) 0 = side_degree (f_vars cfg) row (a, g)).
  { intro g. unfold side_sum. rewrite (nth_indep _ 0 (side_degree (f_vars cfg) [] (a, g))) by (rewrite map_length; assumption). rewrite (map_nth (fun row => side_degree (f_vars cfg) row (a, g))), ER. reflexivity. }
  rewrite !nth_map2 by (unfold side_sum; rewrite ?map_length; congruence || lia). rewrite !K. auto.
Qed.
Print Assumptions C34_first_use_shares_exactly.

(** In a split on a feature that was used above, rows may be marked ([A] is 1 for marked rows); marked rows count fully for
    the side scored, and a row the left group holds partly is marked before the right group is scored. *)
Theorem C34_reuse_marks_before_the_right_side : forall cfg psort X y t p n, btrained cfg psort X y t -> bnode_at t p n -> b_leaf n = false ->
  exists a g1 g2 c1 c2, b_children n = [c1; c2] /\ b_value c1 = Some (a, g1) /\ b_value c2 = Some (a, g2) /\
    (In a (map fst p) -> exists A : list Qc, forall j row, nth_error X j = Some row ->
       let L := qmax (side_degree (f_vars cfg) row (a, g1)) (nth j A 0) in
       let R := side_degree (f_vars cfg) row (a, g2) in
       (nth j A 0 = 0 \/ nth j A 0 = 1 /\ exists g, incl g (seq 0 (nsets (f_vars cfg) a)) /\ 0 < side_degree (f_vars cfg) row (a, g) /\ side_degree (f_vars cfg) row (a, g) < 1) /\
       nth j (b_mu c1) 0 = qmin (nth j (b_mu n) 0) L /\
       (0 < L -> L < 1 -> nth j (b_mu c2) 0 = nth j (b_mu n) 0) /\
       (~ (0 < L /\ L < 1) -> nth j (b_mu c2) 0 = qmin (nth j (b_mu n) 0) (qmax R (nth j A 0)))).
Proof.
  intros cfg psort X y t p n T N Lf. destruct (@trained_shares cfg psort X y t p n T N Lf) as (HL & M1 & ML & a & v & g1 & g2 & c1 & c2 & SO & Ch & V1 & V2 & (_ & SH)).
  exists a, g1, g2, c1, c2. split; [assumption|]. split; [assumption|]. split; [assumption|]. intro IN. destruct (SH IN) as (A & (LA & MA) & E1 & E2). exists A. intros j row E.
  assert (Lj : (j < List.length X)%nat) by (apply nth_error_Some; congruence). assert (ER : nth j X [] = row) by (apply nth_error_nth with (d := []) in E; assumption).
  assert (K : forall g, nth j (side_sum cfg X a g) 0 = side_degree (f_vars cfg) row (a, g)).
  { intro g. unfold side_sum. rewrite (nth_indep _ 0 (side_degree (f_vars cfg) [] (a, g))) by (rewrite map_length; assumption). rewrite (map_nth (fun row => side_degree (f_vars cfg) row (a, g))), ER. reflexivity. }
  assert (LS : forall g, List.length (side_sum cfg X a g) = List.length y) by (intro g; unfold side_sum; rewrite map_length; assumption).
  assert (MX : forall g B, List.length B = List.length y -> List.length (map2 qmax (side_sum cfg X a g) B) = List.length y) by (intros g B LB; rewrite map2_length, LS, LB; apply Nat.min_id).
  assert (Lj' : (j < List.length y)%nat) by lia. assert (MA' := MA j Lj'). rewrite ER in MA'. cbv zeta.
  assert (LM : List.length (mark (map2 qmax (side_sum cfg X a g1) A) A) = List.length y) by (rewrite mark_length; [assumption|rewrite LS; congruence]).
  rewrite E1, E2. split; [assumption|]. rewrite !nth_map2 by (rewrite ?MX, ?LS, ?ML, ?LA, ?LM; assumption || lia). rewrite !K. split; [reflexivity|].
  rewrite nth_mark by (rewrite ?MX, ?LA; assumption || lia). rewrite nth_map2 by (rewrite ?LS, ?LA; assumption). rewrite K. split.
  - intros P1 P2. rewrite (proj2 (qltb_lt _ _) P1), (proj2 (qltb_lt _ _) P2). cbn [andb]. assert (Mj : nth j (b_mu n) 0 <= 1) by (rewrite Forall_forall in M1; apply M1, nth_In; lia).
    apply Qcle_antisym; [apply qmin_l|]. apply qmin_glb; [apply Qcle_refl|]. eapply Qcle_trans; [exact Mj|apply qmax_r].
  - intro NP. destruct (qltb 0 (qmax (side_degree (f_vars cfg) row (a, g1)) (nth j A 0)) && qltb (qmax (side_degree (f_vars cfg) row (a, g1)) (nth j A 0)) 1)%bool eqn:Q; [apply between_iff in Q; contradiction|reflexivity].
Qed.
Print Assumptions C34_reuse_marks_before_the_right_side.

(** so the two sides are not treated alike: a row the left group holds partly is counted fully on the right *)
Theorem C34_partly_left_counts_fully_right : forall cfg psort X y t p n a g1 c1 c2 j row, btrained cfg psort X y t -> bnode_at t p n -> b_leaf n = false ->
  b_children n = [c1; c2] -> b_value c1 = Some (a, g1) -> In a (map fst p) -> nth_error X j = Some row ->
  0 < side_degree (f_vars cfg) row (a, g1) -> side_degree (f_vars cfg) row (a, g1) < 1 -> nth j (b_mu c2) 0 = nth j (b_mu n) 0.
Proof.
  intros cfg psort X y t p n a g1 c1 c2 j row T N Lf Ch V IN E P1 P2. destruct (C34_reuse_marks_before_the_right_side cfg psort X y t p n T N Lf) as (a' & g1' & g2 & d1 & d2 & Ch' & V1 & V2 & K).
  rewrite Ch in Ch'. injection Ch' as <- <-. rewrite V in V1. injection V1 as <- <-. destruct (K IN) as (A & KA). destruct (KA j row E) as (M & E1 & E2 & E3). clear KA K.
  assert (Mj : nth j (b_mu n) 0 <= 1).
  { destruct (@trained_shares cfg psort X y t p n T N Lf) as (HL & M1 & ML & _). rewrite Forall_forall in M1. apply M1, nth_In. rewrite ML, <- HL. apply nth_error_Some. congruence. }
  destruct M as [M|(M & _)]; rewrite M in E2, E3.
  - assert (Q : qmax (side_degree (f_vars cfg) row (a, g1)) 0 = side_degree (f_vars cfg) row (a, g1)) by (destruct (qmax_cases (side_degree (f_vars cfg) row (a, g1)) 0) as [Q|Q]; [assumption|]; assert (LQ := qmax_l (side_degree (f_vars cfg) row (a, g1)) 0); rewrite Q in LQ; qlra).
    rewrite Q in E2. exact (E2 P1 P2).
  - assert (Q : qmax (side_degree (f_vars cfg) row (a, g1)) 1 = 1) by (destruct (qmax_cases (side_degree (f_vars cfg) row (a, g1)) 1) as [Q|Q]; [|assumption]; assert (LQ := qmax_r (side_degree (f_vars cfg) row (a, g1)) 1); rewrite Q in LQ; qlra).
    rewrite Q in E3. rewrite E3 by (intros (_ & Q1); qlra). apply Qcle_antisym; [apply qmin_l|]. apply qmin_glb; [apply Qcle_refl|]. eapply Qcle_trans; [exact Mj|apply qmax_r].
Qed.
Print Assumptions C34_partly_left_counts_fully_right.

(** rows that lie in every group of the feature's sets completely or not at all are never affected *)
Theorem C34_crisp_rows_unaffected : forall cfg psort X y t p n a g1 g2 c1 c2 j row, btrained cfg psort X y t -> bnode_at t p n -> b_leaf n = false ->
  b_children n = [c1; c2] -> b_value c1 = Some (a, g1) -> b_value c2 = Some (a, g2) -> nth_error X j = Some row ->
  (forall g, incl g (seq 0 (nsets (f_vars cfg) a)) -> ~ (0 < side_degree (f_vars cfg) row (a, g) /\ side_degree (f_vars cfg) row (a, g) < 1)) ->
  nth j (b_mu c1) 0 = qmin (nth j (b_mu n) 0) (side_degree (f_vars cfg) row (a, g1)) /\
  nth j (b_mu c2) 0 = qmin (nth j (b_mu n) 0) (side_degree (f_vars cfg) row (a, g2)).
Proof.
  intros cfg psort X y t p n a g1 g2 c1 c2 j row T N Lf Ch W1 W2 E CR. destruct (@trained_shares cfg psort X y t p n T N Lf) as (_ & _ & _ & b & v & h1 & h2 & d1 & d2 & (Hv & _ & _ & Pm & _) & Ch' & V1 & V2 & _).
  rewrite Ch in Ch'. injection Ch' as <- <-. rewrite W1 in V1. rewrite W2 in V2. injection V1 as <- <-. injection V2 as <-.
  assert (I1 : incl g1 (seq 0 (nsets (f_vars cfg) a))) by (intros x Hx; assert (Q : In x (available (f_vars cfg) p a)) by (apply (Permutation_in _ Pm); apply in_or_app; left; assumption); unfold available in Q; apply filter_In in Q; apply Q).
  destruct (in_dec Nat.eq_dec a (map fst p)) as [IN|NI].
  - destruct (C34_reuse_marks_before_the_right_side cfg psort X y t p n T N Lf) as (a' & g1' & g2' & e1 & e2 & Ch' & V1 & V2 & K).
    rewrite Ch in Ch'. injection Ch' as <- <-. rewrite W1 in V1. rewrite W2 in V2. injection V1 as <- <-. injection V2 as <-. destruct (K IN) as (A & KA). destruct (KA j row E) as (M & E1 & E2 & E3). clear KA K.
    destruct M as [M|(_ & g & Ig & P)]; [|destruct (CR g Ig P)]. rewrite M in E1, E2, E3.
    assert (Q : forall g, qmax (side_degree (f_vars cfg) row (a, g)) 0 = side_degree (f_vars cfg) row (a, g)).
    { intro g. assert (P := side_degree_nonneg cfg row (a, g)). destruct (qmax_cases (side_degree (f_vars cfg) row (a, g)) 0) as [Q|Q]; [assumption|]; assert (LQ := qmax_l (side_degree (f_vars cfg) row (a, g)) 0); rewrite Q in LQ |- *. apply Qcle_antisym; assumption. }
    rewrite !Q in E1. rewrite (Q g1), (Q g2) in E3. split; [assumption|]. apply E3. exact (CR g1 I1).
  - destruct (C34_first_use_shares_exactly cfg psort X y t p n T N Lf) as (a' & g1' & g2' & e1 & e2 & Ch' & V1 & V2 & K).
    rewrite Ch in Ch'. injection Ch' as <- <-. rewrite W1 in V1. rewrite W2 in V2. injection V1 as <- <-. injection V2 as <-. exact (K NI j row E).
Qed.
Print Assumptions C34_crisp_rows_unaffected.

(** ** A trained tree that uses a feature twice: rows 0, 5, 10 and 7.5 of a variable with three triangles.  The row 7.5 lies
    half in "mid" and half in "high". *)
Definition ex3_v : fvar := mkV "x" [FC (mkC "low" 0 0 (qz 5) false); FC (mkC "mid" 0 (qz 5) (qz 10) false); FC (mkC "high" (qz 5) (qz 10) (qz 10) false)].
Definition ex3_cfg : fdt_cfg := mkFDT [ex3_v] (1 / 10)%R 2 1 qmin AggVote.
Definition ex3_X : list (list cell) := [[CNum 0]; [CNum (qz 5)]; [CNum (qz 10)]; [CNum (qc 15 2)]].
Definition ex3_y : list Z := [0; 1; 0; 1]%Z.
Definition half : Qc := qc 1 2.
Definition ex3_tree : btree :=
  BTree false
    [BTree true [] (Some [(0%Z, 1); (1%Z, 0)]) 1 (Some (0, [0])%nat) (Some ex3_v) [1; 0; 0; 0] [];
     BTree false
       [BTree true [] (Some [(0%Z, 0); (1%Z, 1)]) 2 (Some (0, [1])%nat) (Some ex3_v) [0; 1; 0; half] [];
        BTree true [] (Some [(0%Z, half); (1%Z, half)]) 2 (Some (0, [2])%nat) (Some ex3_v) [0; 0; 1; 1] []]
       None 1 (Some (0, [1; 2])%nat) (Some ex3_v) [0; 1; 1; 1] []]
    None 0 None None [1; 1; 1; 1] [].

Definition l3 : R := log2 3.
Definition l5 : R := log2 5.
Lemma log2_mult a b : (0 < a)%R -> (0 < b)%R -> log2 (a * b) = (log2 a + log2 b)%R.
Proof. intros A B. unfold log2. rewrite ln_mult by assumption. unfold Rdiv. ring. Qed.
Lemma ln2_pos : (0 < ln 2)%R.
Proof. rewrite <- ln_1. apply ln_increasing; lra. Qed.
Lemma log2_2 : log2 2 = 1%R.
Proof. unfold log2, Rdiv. apply Rinv_r. assert (H := ln2_pos). lra. Qed.
Lemma log2_div a b : (0 < a)%R -> (0 < b)%R -> log2 (a / b) = (log2 a - log2 b)%R.
Proof. intros A B. unfold log2, Rdiv at 2. rewrite ln_mult by (try assumption; apply Rinv_0_lt_compat; assumption). rewrite ln_Rinv by assumption. unfold Rdiv. ring. Qed.
Lemma l3_lower : (3 / 2 <= l3)%R.
Proof. assert (H : (log2 (2 * 2 * 2) <= log2 (3 * 3))%R) by (apply log2_le; lra). rewrite !log2_mult, log2_2 in H by lra. unfold l3. lra. Qed.
Lemma l3_upper : (l3 <= 5 / 3)%R.
Proof. assert (H : (log2 (3 * 3 * 3) <= log2 (2 * 2 * 2 * 2 * 2))%R) by (apply log2_le; lra). rewrite !log2_mult, log2_2 in H by lra. unfold l3. lra. Qed.
Lemma l35 : (6 * l3 <= 5 * l5)%R.
Proof. assert (H : (log2 (3 * 3 * 3 * 3 * 3 * 3) <= log2 (5 * 5 * 5 * 5 * 5))%R) by (apply log2_le; lra). rewrite !log2_mult in H by lra. unfold l3, l5. lra. Qed.
Lemma term_at t y c (q : Qc) r : class_card t y c / qsum t = q -> qltb 0 (class_card t y c) = true -> qr q = r -> entropy_term t y c = (- r * log2 r)%R.
Proof. intros E P <-. unfold entropy_term. rewrite P, E. reflexivity. Qed.
Lemma term_zero t y c : qltb 0 (class_card t y c) = false -> entropy_term t y c = 0%R.
Proof. intro P. unfold entropy_term. rewrite P. reflexivity. Qed.
Lemma ent_two t : fuzzy_entropy t ex3_y = (entropy_term t ex3_y 0 + entropy_term t ex3_y 1)%R.
Proof. unfold fuzzy_entropy. change (zunique ex3_y) with [0; 1]%Z. cbn [map]. unfold rsum. cbn [fold_right]. lra. Qed.
Lemma qr_qc a b : qr (qc a b) = (IZR a / IZR (Zpos b))%R.
Proof. unfold qr, qc, Q2Qc. cbn [this]. rewrite (Qreals.Qeq_eqR _ (a # b) (Qred_correct _)). reflexivity. Qed.
Lemma e_root : fuzzy_entropy [1; 1; 1; 1] ex3_y = 1%R.
Proof.
  rewrite ent_two. assert (H : forall c, c = 0%Z \/ c = 1%Z -> entropy_term [1; 1; 1; 1] ex3_y c = (1 / 2)%R).
  { intros c Hc. rewrite (@term_at _ ex3_y c (qc 1 2) (1 / 2)%R); [rewrite log2_div, log2_1, log2_2 by lra; lra|destruct Hc as [-> | ->]; qex|destruct Hc as [-> | ->]; reflexivity|rewrite qr_qc; reflexivity]. }
  rewrite !H by auto. lra.
Qed.
Lemma e_13 : fuzzy_entropy [0; 1; 1; 1] ex3_y = (l3 - 2 / 3)%R.
Proof.
  rewrite ent_two. rewrite (@term_at _ ex3_y 0%Z (qc 1 3) (1 / 3)%R); [|qex|reflexivity|rewrite qr_qc; reflexivity]. rewrite (@term_at _ ex3_y 1%Z (qc 2 3) (2 / 3)%R); [|qex|reflexivity|rewrite qr_qc; reflexivity].
  rewrite !log2_div, log2_1, log2_2 by lra. unfold l3. lra.
Qed.
Lemma e_pure : fuzzy_entropy [1; 0; 0; 0] ex3_y = 0%R /\ fuzzy_entropy [0; 1; 0; half] ex3_y = 0%R.
Proof.
  split; rewrite ent_two.
  - rewrite (@term_at _ ex3_y 0%Z 1 1%R); [|qex|reflexivity|apply qr_1]. rewrite (@term_zero _ ex3_y 1%Z) by reflexivity. rewrite log2_1. lra.
  - rewrite (@term_at _ ex3_y 1%Z 1 1%R); [|qex|reflexivity|apply qr_1]. rewrite (@term_zero _ ex3_y 0%Z) by reflexivity. rewrite log2_1. lra.
Qed.
Lemma e_b : fuzzy_entropy [1; 1; 0; half] ex3_y = (l5 - 3 / 5 * l3 - 2 / 5)%R /\ fuzzy_entropy [0; 0; 1; half] ex3_y = (l3 - 2 / 3)%R.
Proof.
  split; rewrite ent_two.
  - rewrite (@term_at _ ex3_y 0%Z (qc 2 5) (2 / 5)%R); [|qex|reflexivity|rewrite qr_qc; reflexivity]. rewrite (@term_at _ ex3_y 1%Z (qc 3 5) (3 / 5)%R); [|qex|reflexivity|rewrite qr_qc; reflexivity].
    rewrite !log2_div, log2_2 by lra. unfold l3, l5. lra.
  - rewrite (@term_at _ ex3_y 0%Z (qc 2 3) (2 / 3)%R); [|qex|reflexivity|rewrite qr_qc; reflexivity]. rewrite (@term_at _ ex3_y 1%Z (qc 1 3) (1 / 3)%R); [|qex|reflexivity|rewrite qr_qc; reflexivity].
    rewrite !log2_div, log2_1, log2_2 by lra. unfold l3. lra.
Qed.
Lemma e_r : fuzzy_entropy [0; 0; 1; 1] ex3_y = 1%R.
Proof.
  rewrite ent_two. assert (H : forall c, c = 0%Z \/ c = 1%Z -> entropy_term [0; 0; 1; 1] ex3_y c = (1 / 2)%R).
  { intros c Hc. rewrite (@term_at _ ex3_y c (qc 1 2) (1 / 2)%R); [rewrite log2_div, log2_1, log2_2 by lra; lra|destruct Hc as [-> | ->]; qex|destruct Hc as [-> | ->]; reflexivity|rewrite qr_qc; reflexivity]. }
  rewrite !H by auto. lra.
Qed.
Lemma gain_val mu lm rm gm gl gr (sm sl sr : R) : qeqb (qsum mu) 0 = false -> qr (qsum mu) = sm -> qr (qsum lm) = sl -> qr (qsum rm) = sr ->
  fuzzy_entropy mu ex3_y = gm -> fuzzy_entropy lm ex3_y = gl -> fuzzy_entropy rm ex3_y = gr -> split_gain mu lm rm ex3_y = Ok (gm - (sl * gl + sr * gr) / sm)%R.
Proof. intros Z <- <- <- <- <- <-. unfold split_gain. rewrite Z. reflexivity. Qed.
Ltac sum_val a b := replace (qsum _) with (qc a b) by qex; rewrite qr_qc; lra.
Definition ex3_XM : xmem := [("x", [("low", [1; 0; 0; 0]); ("mid", [0; 1; 0; half]); ("high", [0; 0; 1; half])])].
Definition gA : R := (1 - (1 * 0 + 3 * (l3 - 2 / 3)) / 4)%R.
Definition gC : R := ((l3 - 2 / 3) - (3 / 2 * 0 + 2 * 1) / 3)%R.
Lemma root_split : vmax_split no_sort [] [1; 1; 1; 1] [] [("x", ["low"; "mid"; "high"])] ex3_XM ex3_y =
  Ok ([], Some (mkVS "x" gA [1; 0; 0; 0] [0; 1; 1; 1] ["low"] ["mid"; "high"] [0; 0; 0; 0] [0; 0; 0; 0])).
Proof.
  unfold vmax_split. assert (B : binary_partitions no_sort [] [("x", ["low"; "mid"; "high"])] ex3_XM ex3_y = Ok [("x", ["low"], ["mid"; "high"]); ("x", ["low"; "mid"], ["high"])]) by reflexivity.
  rewrite B. cbn [bind foldM]. unfold vscore_partition. cbn [fst snd]. change (List.length ex3_y) with 4%nat.
  assert (S1 : vscore_side [1; 1; 1; 1] [] ex3_XM 4 "x" ["low"] = Ok ([], [1; 0; 0; 0], [0; 0; 0; 0])) by qex.
  assert (S2 : vscore_side [1; 1; 1; 1] [] ex3_XM 4 "x" ["mid"; "high"] = Ok ([], [0; 1; 1; 1], [0; 0; 0; 0])) by qex.
  assert (S3 : vscore_side [1; 1; 1; 1] [] ex3_XM 4 "x" ["low"; "mid"] = Ok ([], [1; 1; 0; half], [0; 0; 0; 1])) by qex.
  assert (S4 : vscore_side [1; 1; 1; 1] [] ex3_XM 4 "x" ["high"] = Ok ([], [0; 0; 1; half], [0; 0; 0; 1])) by qex.
  rewrite S1. cbn [bind]. rewrite S2. cbn [bind].
  assert (GA : split_gain [1; 1; 1; 1] [1; 0; 0; 0] [0; 1; 1; 1] ex3_y = Ok gA).
  { apply gain_val; [reflexivity|sum_val 4%Z 1%positive|sum_val 1%Z 1%positive|sum_val 3%Z 1%positive|exact e_root|exact (proj1 e_pure)|exact e_13]. }
  rewrite GA. cbn [bind]. cbn [vbest_gain snd]. assert (L : Rltb 0 gA = true) by (apply Rltb_lt; assert (U := l3_upper); unfold gA; lra). rewrite L. cbn [fst snd].
  rewrite S3. cbn [bind]. rewrite S4. cbn [bind].
  rewrite (@gain_val [1; 1; 1; 1] [1; 1; 0; half] [0; 0; 1; half] 1%R (l5 - 3 / 5 * l3 - 2 / 5)%R (l3 - 2 / 3)%R 4%R (5 / 2)%R (3 / 2)%R);
    [|reflexivity|sum_val 4%Z 1%positive|sum_val 5%Z 2%positive|sum_val 3%Z 2%positive|exact e_root|exact (proj1 e_b)|exact (proj2 e_b)].
  cbn [bind vbest_gain v_gain snd]. match goal with |- context [Rltb gA ?g] => assert (L2 : Rltb gA g = false) by (apply Rltb_ge; assert (U := l35); unfold gA; lra) end. rewrite L2. reflexivity.
Qed.
Lemma second_split : vmax_split no_sort [] [0; 1; 1; 1] [("x", [0; 0; 0; 0])] [("x", ["mid"; "high"])] ex3_XM ex3_y =
  Ok ([("x", [0; 0; 0; 1])], Some (mkVS "x" gC [0; 1; 0; half] [0; 0; 1; 1] ["mid"] ["high"] [0; 0; 0; 1] [0; 0; 0; 1])).
Proof.
  unfold vmax_split. assert (B : binary_partitions no_sort [] [("x", ["mid"; "high"])] ex3_XM ex3_y = Ok [("x", ["mid"], ["high"])]) by reflexivity.
  rewrite B. cbn [bind foldM]. unfold vscore_partition. cbn [fst snd]. change (List.length ex3_y) with 4%nat.
  assert (S1 : vscore_side [0; 1; 1; 1] [("x", [0; 0; 0; 0])] ex3_XM 4 "x" ["mid"] = Ok ([("x", [0; 0; 0; 1])], [0; 1; 0; half], [0; 0; 0; 1])) by qex.
  assert (S2 : vscore_side [0; 1; 1; 1] [("x", [0; 0; 0; 1])] ex3_XM 4 "x" ["high"] = Ok ([("x", [0; 0; 0; 1])], [0; 0; 1; 1], [0; 0; 0; 1])) by qex.
  rewrite S1. cbn [bind]. rewrite S2. cbn [bind].
  assert (GC : split_gain [0; 1; 1; 1] [0; 1; 0; half] [0; 0; 1; 1] ex3_y = Ok gC).
  { apply gain_val; [reflexivity|sum_val 3%Z 1%positive|sum_val 3%Z 2%positive|sum_val 2%Z 1%positive|exact e_13|exact (proj2 e_pure)|exact e_r]. }
  rewrite GC. cbn [bind vbest_gain snd]. assert (L : Rltb 0 gC = true) by (apply Rltb_lt; assert (U := l3_lower); unfold gC; lra). rewrite L. reflexivity.
Qed.
Lemma ex3_private : vt_fit ex3_cfg no_sort ex3_X ex3_y = Ok ex3_tree.
Proof.
  unfold vt_fit. assert (C : categorical_features (f_vars ex3_cfg) = Ok []) by reflexivity. rewrite C. cbn [bind]. change (negb (Nat.eqb (List.length ex3_X) (List.length ex3_y)) || Nat.eqb (List.length ex3_y) 0) with false. cbv iota.
  assert (D : dataset_membership ex3_X (f_vars ex3_cfg) = Ok ex3_XM) by qex. rewrite D. cbn [bind].
  change (fuel_for (initial_sets (f_vars ex3_cfg))) with 4%nat. change (initial_sets (f_vars ex3_cfg)) with [("x", ["low"; "mid"; "high"])]. change (repeat 1 (List.length ex3_y)) with [1; 1; 1; 1].
  assert (ST0 : stop_met ex3_cfg gA (masked [1; 1; 1; 1] ex3_y) 0 = false).
  { unfold stop_met. assert (L : Rltb gA (f_threshold ex3_cfg) = false) by (apply Rltb_ge; assert (U := l3_upper); cbn [f_threshold ex3_cfg]; unfold gA; lra). rewrite L. reflexivity. }
  assert (ST1 : stop_met ex3_cfg gC (masked [0; 1; 1; 1] ex3_y) 1 = false).
  { unfold stop_met. assert (L : Rltb gC (f_threshold ex3_cfg) = false) by (apply Rltb_ge; assert (U := l3_lower); cbn [f_threshold ex3_cfg]; unfold gC; lra). rewrite L. reflexivity. }
  assert (P : forall mu ign v, vmax_split no_sort [] mu ign [("x", [v])] ex3_XM ex3_y = Ok (ign, None)) by reflexivity.
  assert (T1 : stop_met ex3_cfg 0%R (masked [1; 0; 0; 0] ex3_y) 1 = true) by reflexivity.
  assert (T2 : stop_met ex3_cfg 0%R (masked [0; 1; 0; half] ex3_y) 2 = true) by reflexivity.
  assert (T3 : stop_met ex3_cfg 0%R (masked [0; 0; 1; 1] ex3_y) 2 = true) by reflexivity.
  assert (K1 : get_class_value [1; 0; 0; 0] ex3_y = Ok [(0%Z, 1); (1%Z, 0)]) by qex.
  assert (K2 : get_class_value [0; 1; 0; half] ex3_y = Ok [(0%Z, 0); (1%Z, 1)]) by qex.
  assert (K3 : get_class_value [0; 0; 1; 1] ex3_y = Ok [(0%Z, half); (1%Z, half)]) by qex.
  remember ex3_XM as XM eqn:EX. assert (RS := root_split). assert (SS := second_split). rewrite <- EX in RS, SS.
  change 4%nat with (S 3). cbn [vfit b_mu b_children b_class b_value b_var]. rewrite RS. cbn [bind vbest_gain v_gain v_att v_left v_right v_lmu v_rmu v_lmarks v_rmarks]. rewrite ST0.
  change (dget "x" (f_positions (f_vars ex3_cfg))) with (Some 0%nat). cbn [ret_opt bind].
  change (nth_error (f_vars ex3_cfg) 0) with (Some ex3_v). cbn [ret_opt bind]. cbv zeta.
  change (dict_of (map (fun js => (fs_name (snd js), fst js)) (enumerate (fv_sets ex3_v)))) with [("low", 0%nat); ("mid", 1%nat); ("high", 2%nat)].
  change (mapM (fun n => ret_opt KeyError (dget n [("low", 0%nat); ("mid", 1%nat); ("high", 2%nat)])) ["low"]) with (@Ok (list nat) [0%nat]).
  change (mapM (fun n => ret_opt KeyError (dget n [("low", 0%nat); ("mid", 1%nat); ("high", 2%nat)])) ["mid"; "high"]) with (@Ok (list nat) [1; 2]%nat).
  change (mapM (fun n => ret_opt KeyError (dget n [("low", 0%nat); ("mid", 1%nat); ("high", 2%nat)])) ["mid"]) with (@Ok (list nat) [1]%nat).
  change (mapM (fun n => ret_opt KeyError (dget n [("low", 0%nat); ("mid", 1%nat); ("high", 2%nat)])) ["high"]) with (@Ok (list nat) [2]%nat).
  cbn [bind]. change (dget "x" [("x", ["low"; "mid"; "high"])]) with (Some ["low"; "mid"; "high"]). cbn [ret_opt bind].
  change (qltb 0 (qsum [1; 0; 0; 0])) with true. change (qltb 0 (qsum [0; 1; 1; 1])) with true. cbv iota.
  change (dset "x" (filter (fun x => memb x ["low"]) ["low"; "mid"; "high"]) [("x", ["low"; "mid"; "high"])]) with [("x", ["low"])].
  change (dset "x" (filter (fun x => memb x ["mid"; "high"]) ["low"; "mid"; "high"]) [("x", ["low"; "mid"; "high"])]) with [("x", ["mid"; "high"])].
  change (inherit [] "x" [0; 0; 0; 0]) with [("x", [0; 0; 0; 0])]. change (0 + 1)%Z with 1%Z.
  rewrite P. cbn [bind vbest_gain]. rewrite T1. rewrite K1. cbn [bind].
  rewrite SS. cbn [bind vbest_gain v_gain v_att v_left v_right v_lmu v_rmu v_lmarks v_rmarks]. rewrite ST1.
  change (dget "x" (f_positions (f_vars ex3_cfg))) with (Some 0%nat). cbn [ret_opt bind].
  change (nth_error (f_vars ex3_cfg) 0) with (Some ex3_v). cbn [ret_opt bind]. cbv zeta.
  change (dict_of (map (fun js => (fs_name (snd js), fst js)) (enumerate (fv_sets ex3_v)))) with [("low", 0%nat); ("mid", 1%nat); ("high", 2%nat)].
  change (mapM (fun n => ret_opt KeyError (dget n [("low", 0%nat); ("mid", 1%nat); ("high", 2%nat)])) ["mid"]) with (@Ok (list nat) [1]%nat).
  change (mapM (fun n => ret_opt KeyError (dget n [("low", 0%nat); ("mid", 1%nat); ("high", 2%nat)])) ["high"]) with (@Ok (list nat) [2]%nat).
  cbn [bind]. change (dget "x" [("x", ["mid"; "high"])]) with (Some ["mid"; "high"]). cbn [ret_opt bind].
  change (qltb 0 (qsum [0; 1; 0; half])) with true. change (qltb 0 (qsum [0; 0; 1; 1])) with true. cbv iota.
  change (dset "x" (filter (fun x => memb x ["mid"]) ["mid"; "high"]) [("x", ["mid"; "high"])]) with [("x", ["mid"])].
  change (dset "x" (filter (fun x => memb x ["high"]) ["mid"; "high"]) [("x", ["mid"; "high"])]) with [("x", ["high"])].
  change (inherit [("x", [0; 0; 0; 1])] "x" [0; 0; 0; 1]) with [("x", [0; 0; 0; 1])]. change (1 + 1)%Z with 2%Z.
  rewrite P. cbn [bind vbest_gain]. rewrite T2. rewrite K2. cbn [bind].
  rewrite P. cbn [bind vbest_gain]. rewrite T3. rewrite K3. cbn [bind app]. reflexivity.
Qed.
Lemma ex3_names : distinct_names (f_vars ex3_cfg).
Proof.
  assert (N : NoDup (map fs_name (fv_sets ex3_v))) by (repeat constructor; cbn; [intros [H|[H|[]]]; discriminate|intros [H|[]]; discriminate|intros []]).
  split; [repeat constructor; intros []|intros v [<-|[]]; assumption].
Qed.
(** the row 7.5 has weight 1 in the node, 1/2 in its left child and 1 in its right child *)
Example C34_instance : exists t, btrained ex3_cfg no_sort ex3_X ex3_y t /\ erase t = ex3_tree /\
  exists n c1 c2, bnode_at t [(0, [1; 2])]%nat n /\ b_leaf n = false /\ b_children n = [c1; c2] /\ In 0%nat (map fst [(0, [1; 2])]%nat) /\
    b_value c1 = Some (0, [1])%nat /\ b_value c2 = Some (0, [2])%nat /\
    side_degree (f_vars ex3_cfg) [CNum (qc 15 2)] (0, [1])%nat = half /\ side_degree (f_vars ex3_cfg) [CNum (qc 15 2)] (0, [2])%nat = half /\
    nth 3 (b_mu n) 0 = 1 /\ nth 3 (b_mu c1) 0 = half /\ nth 3 (b_mu c2) 0 = 1.
Proof.
  assert (P : forall l, Permutation (no_sort l) l) by (intros; apply Permutation_refl).
  assert (F := C34_sharing_is_not_observable ex3_cfg no_sort ex3_X ex3_y P ex3_names). rewrite ex3_private in F. destruct F as (h & t & Ft & ET). exists t.
  split; [split; [assumption|split; [exact ex3_names|exists h; assumption]]|]. split; [assumption|].
  destruct t as [lf cs cv lv va vr mu ig]. unfold ex3_tree in ET. cbn [erase] in ET. injection ET as -> ECs _ _ _ _ _. destruct cs as [|d1 [|d2 [|d3 ds]]]; try discriminate. cbn [map] in ECs. injection ECs as _ E2.
  destruct d2 as [lf2 cs2 cv2 lv2 va2 vr2 mu2 ig2]. cbn [erase] in E2. injection E2 as -> ECs2 _ _ EV _ EM. destruct cs2 as [|e1 [|e2 [|e3 es]]]; try discriminate. cbn [map] in ECs2. injection ECs2 as F1 F2.
  exists (BTree false [e1; e2] cv2 lv2 va2 vr2 mu2 ig2), e1, e2. split; [|split; [reflexivity|split; [reflexivity|split; [left; reflexivity|]]]].
  - eapply bat_child; [reflexivity|right; left; reflexivity|exact EV|constructor].
  - destruct e1 as [? ? ? ? va1 ? mu1 ?], e2 as [? ? ? ? va3 ? mu3 ?]. cbn [erase] in F1, F2. injection F1 as _ _ _ _ -> _ ->. injection F2 as _ _ _ _ -> _ ->. cbn [b_value b_mu]. subst mu2.
    split; [reflexivity|]. split; [reflexivity|]. split; [qex|]. split; [qex|]. split; [reflexivity|]. split; reflexivity.
Qed.
