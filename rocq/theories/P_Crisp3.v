(** * Proofs about rows without fuzziness in binary trees *)
From Verif Require Import Prelude M_Fuzzy M_Discretize M_Rule M_FDT M_FBDT S_Rule S_FDT S_FBDT S_FBDT2 S_FBDTPrivate S_Crisp S_Crisp2 P_FuzzySet P_FuzzyVar P_Entropy P_Rule P_FDT P_FDT2 P_FDT3 P_FDT4 P_FBDT P_FBDT2 P_FBDT3 P_FBDT4 P_FBDT5 P_FBDT6 P_Crisp P_Crisp2 Properties_FDT Properties_FBDT Properties_FBDT2 Properties_FBDT3.
Set Implicit Arguments.
Open Scope Qc_scope.
Local Notation share := S_FDT.share.

Lemma NoDup_app_inv A (l l' : list A) : NoDup (l ++ l') -> NoDup l /\ NoDup l' /\ forall x, In x l -> ~ In x l'.
Proof.
  induction l as [|a l IH]; intro N; [split; [constructor|split; [exact N|intros x []]]|]. inversion N as [|? ? Na N']; subst. destruct (IH N') as (A1 & A2 & A3).
  split; [constructor; [intro; apply Na, in_or_app; auto|assumption]|]. split; [assumption|]. intros x [<-|Hx]; [intro; apply Na, in_or_app; auto|auto].
Qed.
(** degrees in groups of sets *)
Lemma side_crisp vars row a i g : NoDup g -> lit_degree vars row (a, i) = 1 -> (forall j, j <> i -> lit_degree vars row (a, j) = 0) ->
  side_degree vars row (a, g) = if in_dec Nat.eq_dec i g then 1 else 0.
Proof.
  intros N H1 H0. unfold side_degree. cbn [fst snd]. induction N as [|x g Nx N IH]; [reflexivity|]. cbn [map]. rewrite qsum_cons, IH.
  destruct (Nat.eq_dec x i) as [->|D].
  - rewrite H1. destruct (in_dec Nat.eq_dec i g); [contradiction|]. destruct (in_dec Nat.eq_dec i (i :: g)) as [_|K]; [reflexivity|destruct K; left; reflexivity].
  - rewrite (H0 x D). destruct (in_dec Nat.eq_dec i g) as [I|I]; destruct (in_dec Nat.eq_dec i (x :: g)) as [J|J]; try ring.
    + destruct J. right. assumption.
    + destruct J as [J|J]; [congruence|contradiction].
Qed.
Lemma side_out vars row a i g : (forall j, j <> i -> lit_degree vars row (a, j) = 0) -> ~ In i g -> side_degree vars row (a, g) = 0.
Proof.
  intros H0 N. unfold side_degree. cbn [fst snd]. apply qsum_map_zero. intros x Hx. apply H0. intros ->. contradiction.
Qed.
Lemma side_01 vars row a v g : crisp vars row -> nth_error vars a = Some v -> NoDup g -> side_degree vars row (a, g) = 1 \/ side_degree vars row (a, g) = 0.
Proof. intros C Hv N. destruct (C a v Hv) as (i & _ & H1 & H0). rewrite (@side_crisp vars row a i g N H1 H0). destruct (in_dec _ i g); auto. Qed.

Lemma bact_zero tn vars row p : crisp_norm tn -> (forall l, In l p -> side_degree vars row l = 1 \/ side_degree vars row l = 0) -> bact_from tn vars row 0 p = 0.
Proof.
  intros (_ & _ & A & B) C. induction p as [|l p IH]; [reflexivity|]. unfold bact_from. cbn [fold_left].
  destruct (C l (or_introl eq_refl)) as [-> | ->]; rewrite ?A, ?B; apply IH; intros; apply C; right; assumption.
Qed.
Lemma bact_inside tn vars row p : crisp_norm tn -> (forall l, In l p -> side_degree vars row l = 1 \/ side_degree vars row l = 0) ->
  bact_from tn vars row 1 p = if binside vars row p then 1 else 0.
Proof.
  intros N C. assert (N' := N). destruct N' as (A & B & _). induction p as [|l p IH]; [reflexivity|]. unfold bact_from, binside. cbn [fold_left forallb].
  destruct (C l (or_introl eq_refl)) as [E|E]; rewrite E.
  - rewrite A. cbn [andb]. replace (qeqb 1 1) with true by reflexivity. apply IH. intros; apply C; right; assumption.
  - rewrite B. replace (qeqb 0 1) with false by reflexivity. apply bact_zero; [assumption|]. intros; apply C; right; assumption.
Qed.
Lemma path_01 cfg psort X y t p n row : btrained cfg psort X y t -> bnode_at t p n -> crisp (f_vars cfg) row ->
  forall l, In l p -> side_degree (f_vars cfg) row l = 1 \/ side_degree (f_vars cfg) row l = 0.
Proof.
  intros T H C [a g] I. destruct (btrained_node _ _ _ _ _ _ _ T H) as (PO & _).
  destruct (@path_valid cfg _ PO a g I) as (v & Hv & N & _). exact (@side_01 (f_vars cfg) row a v g C Hv N).
Qed.

Lemma bnode_snoc t p n c l : bnode_at t p n -> b_leaf n = false -> In c (b_children n) -> b_value c = Some l -> bnode_at t (p ++ [l]) c.
Proof.
  intros H L I V. induction H as [t|t d k p n Lt Id Vd H IH].
  - cbn [app]. eapply bat_child; [eassumption|eassumption|eassumption|constructor].
  - cbn [app]. eapply bat_child; [eassumption|eassumption|eassumption|]. apply IH; assumption.
Qed.
Lemma inside_available vars row p a i : (i < nsets vars a)%nat -> (forall j, j <> i -> lit_degree vars row (a, j) = 0) ->
  binside vars row p = true -> In i (available vars p a).
Proof.
  intros Hi H0 I. unfold available. apply filter_In. split; [apply in_seq; lia|]. apply forallb_forall. intros [b g] Hl. cbn [fst snd].
  destruct (Nat.eqb_spec b a) as [->|D]; [|reflexivity]. cbn [negb orb]. unfold binside in I. rewrite forallb_forall in I. specialize (I _ Hl). cbn beta in I.
  destruct (memb i g) eqn:M; [reflexivity|]. exfalso. rewrite (@side_out vars row a i g H0) in I; [discriminate I|].
  intro K. apply (proj2 (@memb_In _ _ i g)) in K. congruence.
Qed.

Definition bonly (vars : list fvar) (row : list cell) (l : list (list glit * btree)) : Prop :=
  exists l1 p n l2, l = l1 ++ (p, n) :: l2 /\ binside vars row p = true /\
    forall q m, In (q, m) (l1 ++ l2) -> binside vars row q = false.
Lemma bone_leaf cfg psort X y t row : btrained cfg psort X y t -> crisp (f_vars cfg) row ->
  forall n p, bnode_at t p n -> binside (f_vars cfg) row p = true -> bonly (f_vars cfg) row (bleaves n).
Proof.
  intros T C. induction n as [lf cs cv lv va vr mu ig IH] using btree_ind'. intros p H I. destruct lf.
  - exists [], [], (BTree true cs cv lv va vr mu ig), []. split; [reflexivity|]. split; [reflexivity|]. intros q m [].
  - destruct (@C31_split cfg psort X y t p _ T H eq_refl) as (a & v & g1 & g2 & Hv & V & _ & _ & _ & Pm & _). cbn [b_children] in V.
    destruct cs as [|c1 [|c2 [|c3 cs]]]; try discriminate V. cbn [map] in V. injection V as V1 V2.
    destruct (C a v Hv) as (i & Hi & H1 & H0).
    assert (Av : In i (available (f_vars cfg) p a)).
    { apply (@inside_available (f_vars cfg) row p a i); try assumption. unfold nsets. rewrite Hv. assumption. }
    apply (Permutation_in _ (Permutation_sym Pm)) in Av.
    assert (ND : NoDup (g1 ++ g2)) by (apply (Permutation_NoDup (Permutation_sym Pm)), available_NoDup).
    rewrite Forall_forall in IH.
    assert (Hn1 : bnode_at t (p ++ [(a, g1)]) c1) by (eapply bnode_snoc; [exact H|reflexivity|left; reflexivity|exact V1]).
    assert (Hn2 : bnode_at t (p ++ [(a, g2)]) c2) by (eapply bnode_snoc; [exact H|reflexivity|right; left; reflexivity|exact V2]).
    assert (Oc1 : bown c1 = [(a, g1)]) by (unfold bown; rewrite V1; reflexivity). assert (Oc2 : bown c2 = [(a, g2)]) by (unfold bown; rewrite V2; reflexivity).
    assert (Ng : NoDup g1 /\ NoDup g2).
    { split; [exact (proj1 (@NoDup_app_inv _ g1 g2 ND))|exact (proj1 (proj2 (@NoDup_app_inv _ g1 g2 ND)))]. }
    destruct Ng as [N1 N2].
    assert (Ext : forall c g q m l, bown c = [(a, g)] -> In (q, m) (map (bextend c) l) -> exists q', q = (a, g) :: q' /\ In (q', m) l).
    { intros c g q m l Oc Hq. apply in_map_iff in Hq. destruct Hq as [[q' m'] [Eq Hq]]. unfold bextend in Eq. rewrite Oc in Eq. injection Eq as <- <-. exists q'. auto. }
    assert (Full : forall g, In i g -> NoDup g -> forall q, binside (f_vars cfg) row ((a, g) :: q) = binside (f_vars cfg) row q).
    { intros g Ig Nd q. unfold binside. cbn [forallb]. rewrite (@side_crisp (f_vars cfg) row a i g Nd H1 H0). destruct (in_dec Nat.eq_dec i g); [reflexivity|contradiction]. }
    assert (Out : forall g, ~ In i g -> forall q, binside (f_vars cfg) row ((a, g) :: q) = false).
    { intros g Ig q. unfold binside. cbn [forallb]. rewrite (@side_out (f_vars cfg) row a i g H0 Ig). reflexivity. }
    assert (Snoc : forall g, In i g -> NoDup g -> binside (f_vars cfg) row (p ++ [(a, g)]) = true).
    { intros g Ig Nd. unfold binside in *. rewrite forallb_app, I. cbn [forallb]. rewrite (@side_crisp (f_vars cfg) row a i g Nd H1 H0). destruct (in_dec Nat.eq_dec i g); [reflexivity|contradiction]. }
    rewrite bleaves_inner. cbn [map List.concat]. rewrite app_nil_r. apply in_app_or in Av. destruct Av as [Av|Av].
    + assert (Nav : ~ In i g2) by (exact (proj2 (proj2 (@NoDup_app_inv _ g1 g2 ND)) i Av)).
      destruct (IH c1 (or_introl eq_refl) _ Hn1 (Snoc g1 Av N1)) as (l1 & q & m & l2 & E & Iq & Ie). rewrite E, map_app. cbn [map].
      exists (map (bextend c1) l1), (bown c1 ++ q), m, (map (bextend c1) l2 ++ map (bextend c2) (bleaves c2)). split; [unfold bextend at 2; cbn [fst snd]; rewrite <- app_assoc; reflexivity|].
      rewrite Oc1. cbn [app]. split; [rewrite Full; assumption|]. intros q' m' Hq. rewrite !in_app_iff in Hq. destruct Hq as [Hq|[Hq|Hq]].
      * destruct (Ext _ _ _ _ _ Oc1 Hq) as (r & -> & Hr). rewrite Full by assumption. apply (Ie r m'). apply in_or_app. auto.
      * destruct (Ext _ _ _ _ _ Oc1 Hq) as (r & -> & Hr). rewrite Full by assumption. apply (Ie r m'). apply in_or_app. auto.
      * destruct (Ext _ _ _ _ _ Oc2 Hq) as (r & -> & Hr). apply Out. assumption.
    + assert (Nav : ~ In i g1) by (intro K; exact (proj2 (proj2 (@NoDup_app_inv _ g1 g2 ND)) i K Av)).
      destruct (IH c2 (or_intror (or_introl eq_refl)) _ Hn2 (Snoc g2 Av N2)) as (l1 & q & m & l2 & E & Iq & Ie). rewrite E, map_app. cbn [map].
      exists (map (bextend c1) (bleaves c1) ++ map (bextend c2) l1), (bown c2 ++ q), m, (map (bextend c2) l2). split; [unfold bextend at 3; cbn [fst snd]; rewrite <- app_assoc; reflexivity|].
      rewrite Oc2. cbn [app]. split; [rewrite Full; assumption|]. intros q' m' Hq. rewrite !in_app_iff in Hq. destruct Hq as [[Hq|Hq]|Hq].
      * destruct (Ext _ _ _ _ _ Oc1 Hq) as (r & -> & Hr). apply Out. assumption.
      * destruct (Ext _ _ _ _ _ Oc2 Hq) as (r & -> & Hr). rewrite Full by assumption. apply (Ie r m'). apply in_or_app. auto.
      * destruct (Ext _ _ _ _ _ Oc2 Hq) as (r & -> & Hr). rewrite Full by assumption. apply (Ie r m'). apply in_or_app. auto.
Qed.

(** ** training memberships of crisp rows *)
Lemma side_count vars row a i g : lit_degree vars row (a, i) = 1 -> (forall j, j <> i -> lit_degree vars row (a, j) = 0) ->
  side_degree vars row (a, g) = qn (count_occ Nat.eq_dec g i).
Proof.
  intros H1 H0. unfold side_degree. cbn [fst snd]. induction g as [|x g IH]; [reflexivity|]. cbn [map count_occ]. rewrite qsum_cons, IH.
  destruct (Nat.eq_dec x i) as [->|D]; [rewrite H1, qn_S; reflexivity|]. rewrite (H0 x D). ring.
Qed.
Lemma crisp_whole vars row a v g : crisp vars row -> nth_error vars a = Some v -> ~ (0 < side_degree vars row (a, g) /\ side_degree vars row (a, g) < 1).
Proof.
  intros C Hv (A & B). destruct (C a v Hv) as (i & _ & H1 & H0). rewrite (@side_count vars row a i g H1 H0) in A, B. destruct (count_occ Nat.eq_dec g i) as [|k].
  - rewrite qn_0 in A. qlra.
  - rewrite qn_S in B. assert (Q := qn_nonneg k). qlra.
Qed.
Definition exact_mu (vars : list fvar) (X : list (list cell)) (p : list glit) : list Qc := map (fun row => if binside vars row p then 1 else 0) X.
Lemma binside_snoc vars row p l : binside vars row (p ++ [l]) = binside vars row p && qeqb (side_degree vars row l) 1.
Proof. unfold binside. rewrite forallb_app. cbn [forallb]. rewrite andb_true_r. reflexivity. Qed.
Lemma list_nth_eq (l l' : list Qc) : List.length l = List.length l' -> (forall j, (j < List.length l)%nat -> nth j l 0 = nth j l' 0) -> l = l'.
Proof. intros L H. apply (nth_ext l l' 0 0 L H). Qed.
Lemma exact_child cfg psort X y t p n c l : btrained cfg psort X y t -> (forall row, In row X -> crisp (f_vars cfg) row) ->
  bnode_at t p n -> b_leaf n = false -> b_mu n = exact_mu (f_vars cfg) X p -> In c (b_children n) -> b_value c = Some l ->
  b_mu c = exact_mu (f_vars cfg) X (p ++ [l]).
Proof.
  intros T C N Lf E Ic Vc.
  destruct (@trained_shares cfg psort X y t p n T N Lf) as (HL & _ & Lm & a & v & g1 & g2 & c1 & c2 & (Hv & _ & _ & Pm & _) & Ch & V1 & V2 & SH).
  assert (ND : NoDup (g1 ++ g2)) by (apply (Permutation_NoDup (Permutation_sym Pm)), available_NoDup).
  destruct (@NoDup_app_inv _ g1 g2 ND) as (N1 & N2 & _).
  (* memberships of a side *)
  assert (Plain : forall g, NoDup g -> map2 qmin (exact_mu (f_vars cfg) X p) (side_sum cfg X a g) = exact_mu (f_vars cfg) X (p ++ [(a, g)])).
  { intros g Ng. unfold exact_mu, side_sum. rewrite map2_map_l, map2_map_r, map2_diag. apply map_ext_in. intros row Hr. rewrite binside_snoc.
    destruct (@side_01 (f_vars cfg) row a v g (C row Hr) Hv Ng) as [-> | ->]; destruct (binside (f_vars cfg) row p); reflexivity. }
  assert (Zero : forall A, marked cfg X y a A -> A = repeat 0 (List.length X)).
  { intros A (LA & M). apply list_nth_eq; [rewrite repeat_length, HL; exact LA|]. intros j Hj. rewrite nth_repeat. rewrite LA in Hj. destruct (M j Hj) as [Q|(_ & g & _ & Q)]; [exact Q|].
    exfalso. apply (@crisp_whole (f_vars cfg) (nth j X []) a v g); [apply C, nth_In; lia|exact Hv|exact Q]. }
  assert (Side0 : forall g, map2 qmax (side_sum cfg X a g) (repeat 0 (List.length X)) = side_sum cfg X a g).
  { intro g. unfold side_sum. clear. induction X as [|r X' IH]; [reflexivity|]. cbn [map List.length repeat map2]. rewrite IH. f_equal.
    assert (Q := @side_degree_nonneg cfg r (a, g)). clear - Q. unfold qmax; qcase; qlra. }
  assert (Mark0 : forall g, mark (side_sum cfg X a g) (repeat 0 (List.length X)) = repeat 0 (List.length X)).
  { intro g. assert (Cr : forall r, In r X -> ~ (0 < side_degree (f_vars cfg) r (a, g) /\ side_degree (f_vars cfg) r (a, g) < 1)) by (intros r Hr; exact (@crisp_whole (f_vars cfg) r a v g (C r Hr) Hv)).
    clear - Cr. unfold side_sum, mark. induction X as [|r X' IH]; [reflexivity|]. cbn [map List.length repeat map2]. rewrite IH by (intros; apply Cr; right; assumption). f_equal.
    destruct (qltb 0 _ && qltb _ 1) eqn:B; [|reflexivity]. exfalso. apply (Cr r (or_introl eq_refl)). apply between_iff. exact B. }
  assert (G : b_mu c1 = exact_mu (f_vars cfg) X (p ++ [(a, g1)]) /\ b_mu c2 = exact_mu (f_vars cfg) X (p ++ [(a, g2)])).
  { destruct SH as [S1 S2]. destruct (in_dec Nat.eq_dec a (map fst p)) as [IN|NI].
    - destruct (S2 IN) as (A & M & -> & ->). rewrite (Zero A M), E. rewrite !Side0, Mark0, Side0. split; apply Plain; assumption.
    - destruct (S1 NI) as (-> & ->). rewrite E. split; apply Plain; assumption. }
  rewrite Ch in Ic. destruct Ic as [<-|[<-|[]]].
  - rewrite V1 in Vc. injection Vc as <-. apply G.
  - rewrite V2 in Vc. injection Vc as <-. apply G.
Qed.
Lemma exact_nodes cfg psort X y t : btrained cfg psort X y t -> (forall row, In row X -> crisp (f_vars cfg) row) ->
  forall p n, bnode_at t p n -> b_mu n = exact_mu (f_vars cfg) X p.
Proof.
  intros T C.
  assert (G : forall n q m, bnode_at n q m -> forall p, bnode_at t p n -> b_mu n = exact_mu (f_vars cfg) X p -> b_mu m = exact_mu (f_vars cfg) X (p ++ q)).
  { intros n q m N. induction N as [n|n c l q m Lf Ic Vc N IH]; intros p Hp E; [rewrite app_nil_r; exact E|].
    replace (p ++ l :: q) with ((p ++ [l]) ++ q) by (rewrite <- app_assoc; reflexivity). apply IH.
    - exact (@bnode_snoc t p n c l Hp Lf Ic Vc).
    - exact (@exact_child cfg psort X y t p n c l T C Hp Lf E Ic Vc). }
  intros p n N. apply (G t p n N []); [constructor|].
  destruct (trained_vfitted T) as (cats & HC & F). assert (HC' := HC). destruct HC' as (_ & _ & HL & _).
  destruct (@vfitted_cases cfg psort X y cats HC [] (broot y) [] (erase t) F eq_refl) as (Mu & _).
  destruct (erase_fields t) as (EM & _). rewrite <- EM, Mu. cbn [b_mu broot]. unfold exact_mu. cbn [binside forallb]. rewrite <- HL. clear.
  induction X as [|r X' IH]; [reflexivity|]. cbn [List.length repeat map]. rewrite IH. reflexivity.
Qed.

(** ** prediction *)
Lemma bonly_support cfg t row l1 p n l2 c : (forall q m, In (q, m) (bleaves t) -> bactivation (f_tnorm cfg) (f_vars cfg) row q = if binside (f_vars cfg) row q then 1 else 0) ->
  bleaves t = l1 ++ (p, n) :: l2 -> binside (f_vars cfg) row p = true -> 0 <= bleaf_weight n c ->
  (forall q m, In (q, m) (l1 ++ l2) -> binside (f_vars cfg) row q = false) -> brow_support cfg t row c = bleaf_weight n c.
Proof.
  intros N E Ip Wn Iq. set (g := fun pl : list glit * btree => bleaf_weight (snd pl) c * bactivation (f_tnorm cfg) (f_vars cfg) row (fst pl)).
  assert (Gp : g (p, n) = bleaf_weight n c). { unfold g. cbn [fst snd]. rewrite (N p n), Ip; [ring|]. rewrite E. apply in_or_app. right. left. reflexivity. }
  assert (Gz : forall pl, In pl (l1 ++ l2) -> g pl = 0).
  { intros [q m] H. unfold g. cbn [fst snd]. rewrite (N q m), (Iq q m H); [ring|]. rewrite E. apply in_app_or in H. apply in_or_app. destruct H; [left|right; right]; assumption. }
  assert (Z2 : forall l b, 0 <= b -> (forall pl, In pl l -> g pl = 0) -> fold_right qmax b (map g l) = b).
  { induction l as [|x l IH]; intros b Hb H; [reflexivity|]. cbn [map fold_right]. rewrite (H x (or_introl eq_refl)), IH; [|assumption|intros pl Hpl; apply H; right; assumption].
    clear - Hb. unfold qmax; qcase; qlra. }
  assert (D1 : forall pl, In pl l1 -> g pl = 0) by (intros; apply Gz, in_or_app; auto).
  assert (D2 : forall pl, In pl l2 -> g pl = 0) by (intros; apply Gz, in_or_app; auto).
  unfold brow_support. fold g. rewrite E, map_app. cbn [map]. destruct (f_voting cfg).
  - rewrite qsum_app, qsum_cons, (qsum_map_zero g l1 D1), (qsum_map_zero g l2 D2), Gp. ring.
  - rewrite fold_right_app. cbn [fold_right]. rewrite (Z2 l2 0 (Qcle_refl 0) D2), Gp.
    assert (M : qmax (bleaf_weight n c) 0 = bleaf_weight n c) by (clear - Wn; unfold qmax; qcase; qlra).
    rewrite M. apply Z2; assumption.
Qed.
Lemma bweight_01 vars classes t p n c : bwf vars classes t -> In (p, n) (bleaves t) -> 0 <= bleaf_weight n c.
Proof.
  intros W H. destruct (@bwf_leaves vars classes t W p n H) as [(d & E & _ & B & _) _]. unfold bleaf_weight. rewrite E.
  destruct (dget c d) as [w|] eqn:G; [|apply Qcle_refl]. apply dget_In in G. apply (B c w G).
Qed.
Lemma bpredict_only cfg psort X y t row : btrained cfg psort X y t -> crisp_norm (f_tnorm cfg) -> crisp (f_vars cfg) row -> readable (f_vars cfg) [row] ->
  exists l1 p n l2 c, bleaves t = l1 ++ (p, n) :: l2 /\ binside (f_vars cfg) row p = true /\
    (forall q m, In (q, m) (l1 ++ l2) -> binside (f_vars cfg) row q = false) /\
    bpredict cfg t [row] = Ok [c] /\ best_class (zunique y) (bleaf_weight n) c.
Proof.
  intros T N C R. destruct (btrained_wf _ _ _ _ _ T) as [W V].
  destruct (@bone_leaf cfg psort X y t row T C t [] (bat_self t) eq_refl) as (l1 & p & n & l2 & E & Ip & Iq).
  destruct (@bpredict_spec cfg t (zunique y) [row] W V (zunique_sorted y) (zunique_NoDup y) (btrained_y _ _ _ _ _ T) R) as [ps [Ep F]].
  inversion F as [|r c l l' B F' E1 E2]; subst. inversion F'; subst.
  exists l1, p, n, l2, c. split; [assumption|]. split; [assumption|]. split; [assumption|]. split; [assumption|].
  apply (best_class_ext (f := brow_support cfg t row)); [|exact B]. intros c' _.
  apply (@bonly_support cfg t row l1 p n l2 c'); try assumption.
  - intros q m Hq. apply (@bact_inside (f_tnorm cfg) (f_vars cfg) row q N). apply (@path_01 cfg psort X y t q m row T); [|assumption].
    apply (@bleaves_node_at _ _ _ W). assumption.
  - apply (@bweight_01 (f_vars cfg) (zunique y) t p n c' W). rewrite E. apply in_or_app. right. left. reflexivity.
Qed.

(** ** leaf weights are relative frequencies *)
Lemma exact_sum vars X y p : List.length X = List.length y -> qsum (exact_mu vars X p) = qn (List.length (bmembers vars X y p)).
Proof.
  unfold exact_mu, bmembers. revert y. induction X as [|row X IH]; intros [|k y] L; try discriminate; [reflexivity|].
  cbn [map combine filter fst]. rewrite qsum_cons, (IH y) by (cbn in L; lia). destruct (binside vars row p); cbn [map List.length]; [rewrite qn_S; reflexivity|ring].
Qed.
Lemma exact_class vars X y p c : List.length X = List.length y -> qsum (map2 (fun m k => if Z.eqb k c then m else 0) (exact_mu vars X p) y) = frequency (bmembers vars X y p) c.
Proof.
  unfold exact_mu, bmembers, frequency. revert y. induction X as [|row X IH]; intros [|k y] L; try discriminate; [reflexivity|].
  cbn [map map2 combine filter fst]. rewrite qsum_cons, (IH y) by (cbn in L; lia). destruct (binside vars row p); cbn [map snd count_occ].
  - destruct (Z.eqb_spec k c) as [->|D]; destruct (Z.eq_dec _ c) as [E|E]; try congruence; [rewrite qn_S; reflexivity|ring].
  - destruct (Z.eqb k c); ring.
Qed.
Lemma exact_weight vars X y q n cv c : List.length X = List.length y -> b_class n = Some cv -> weighted_by y (exact_mu vars X q) cv -> In c (zunique y) ->
  bleaf_weight n c = frequency (bmembers vars X y q) c / qn (List.length (bmembers vars X y q)).
Proof.
  intros HL E (K & Wt) Hc. unfold bleaf_weight. rewrite E. destruct (dget c cv) as [w|] eqn:G.
  - apply dget_In in G. rewrite (Wt c w G), exact_class, exact_sum with (y := y) by assumption. reflexivity.
  - exfalso. rewrite <- K in Hc. apply in_map_iff in Hc. destruct Hc as [[c' w] [Ec Hin]]. cbn in Ec. subst c'. apply dget_None in G. apply G. unfold dkeys. apply in_map_iff. exists (c, w). auto.
Qed.
Lemma bleaf_counts cfg psort X y t p n : btrained cfg psort X y t -> (forall row, In row X -> crisp (f_vars cfg) row) -> In (p, n) (bleaves t) ->
  exists q, bmembers (f_vars cfg) X y q <> [] /\
    (q = p \/ (bmembers (f_vars cfg) X y p = [] /\ exists l, p = q ++ [l])) /\
    forall c, In c (zunique y) -> bleaf_weight n c = frequency (bmembers (f_vars cfg) X y q) c / qn (List.length (bmembers (f_vars cfg) X y q)).
Proof.
  intros T C Hin. destruct (btrained_wf _ _ _ _ _ T) as [W V]. apply (@bleaves_node_at _ _ t W) in Hin. destruct Hin as [Hn Hl].
  destruct (trained_vfitted T) as (cats & HC & F). assert (HC' := HC). destruct HC' as (_ & _ & HL & _).
  assert (Ex := exact_nodes T C).
  assert (Ne : forall q, qsum (exact_mu (f_vars cfg) X q) <> 0 -> bmembers (f_vars cfg) X y q <> []).
  { intros q Hq K. apply Hq. rewrite (@exact_sum (f_vars cfg) X y q HL), K. reflexivity. }
  destruct (Qc_eq_dec (qsum (b_mu n)) 0) as [Z|NZ].
  - destruct (@C88_unreached_leaf_takes_parents_weights cfg psort X y t p n T Hn Hl Z) as (q & l & m & cv & -> & Nm & _ & _ & Ec & Wt).
    rewrite (Ex q m Nm) in Wt. rewrite (Ex _ n Hn) in Z. exists q. split; [|split].
    + apply Ne. intro Zq. destruct (@bwf_leaves _ _ t W (q ++ [l]) n) as [(d & Ed & _ & _ & Sd) _]; [apply (@bleaves_node_at _ _ t W); split; assumption|].
      rewrite Ec in Ed. injection Ed as <-. destruct Wt as [_ Wt]. rewrite (qsum_map_zero snd cv) in Sd; [discriminate Sd|].
      intros [c w] Hcw. cbn [snd]. rewrite (Wt c w Hcw), Zq. unfold Qcdiv. replace (/ 0) with 0 by reflexivity. ring.
    + right. split; [|exists l; reflexivity]. rewrite (@exact_sum (f_vars cfg) X y _ HL), <- qn_0, qn_inj in Z. destruct (bmembers _ _ _ _); [reflexivity|discriminate].
    + intros c Hc. exact (@exact_weight (f_vars cfg) X y q n cv c HL Ec Wt Hc).
  - exists p. destruct (erase_fields n) as (EM & _ & ECl & _).
    assert (Lm' : b_leaf (erase n) = true) by (rewrite erase_leaf; assumption).
    destruct (@vleaves cfg psort X y cats HC (erase t) p (erase n) (erase_node Hn) [] (broot y) [] F eq_refl Lm') as [(P & MO & (cv & GV & CV) & _)|(Z & _)]; [|rewrite EM in Z; contradiction].
    rewrite EM in GV. rewrite ECl in CV. apply weighted_value in GV. rewrite (Ex p n Hn) in GV, NZ. split; [apply Ne; exact NZ|]. split; [left; reflexivity|].
    intros c Hc. exact (@exact_weight (f_vars cfg) X y p n cv c HL CV GV Hc).
Qed.
