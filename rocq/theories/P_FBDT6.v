(** * Which splits are considered, and which one is taken *)
From Verif Require Import Prelude M_Fuzzy M_Discretize M_Rule M_FDT S_Rule S_FDT P_FuzzyVar P_Entropy P_FDT P_FDT2 M_FBDT S_FBDT S_FBDT2 S_FBDTPrivate P_FBDT P_FBDT2 P_FBDT4 P_FBDT5 P_Counterfactual.
From Coq Require Import Reals Lra.
Set Implicit Arguments.
Open Scope Qc_scope.

Lemma cuts_complete f splits l r : splits = l ++ r -> l <> [] -> r <> [] -> In (f, l, r) (cuts f splits).
Proof.
  intros -> L R. unfold cuts. apply in_map_iff. exists (List.length l - 1)%nat. destruct l as [|x l]; [congruence|]. destruct r as [|z r]; [congruence|]. replace (S (List.length (x :: l) - 1)) with (List.length (x :: l)) by (cbn [List.length]; lia). split.
  - rewrite firstn_app, firstn_all, Nat.sub_diag, skipn_app, skipn_all, Nat.sub_diag. cbn [firstn skipn app]. rewrite app_nil_r. reflexivity.
  - apply in_seq. rewrite app_length. cbn [List.length]. lia.
Qed.
(** a sorted list is cut where all keys of one part lie below all keys of the other *)
Lemma sorted_cut A (lt : A -> A -> Prop) (le : A -> A -> Prop) (Hlt : forall x z, lt x z -> le z x -> False) l : StronglySorted le l -> forall l1 l2, Permutation l (l1 ++ l2) ->
  (forall x z, In x l1 -> In z l2 -> lt x z) -> exists m1 m2, l = m1 ++ m2 /\ Permutation m1 l1 /\ Permutation m2 l2.
Proof.
  induction 1 as [|x l S IH F]; intros l1 l2 P H.
  - apply Permutation_nil in P. apply app_eq_nil in P. destruct P as (-> & ->). exists [], []. auto.
  - destruct l1 as [|x1 l1].
    + exists [], (x :: l). auto.
    + assert (I : In x (x1 :: l1)).
      { assert (Ix : In x ((x1 :: l1) ++ l2)) by (apply (Permutation_in _ P); left; reflexivity). apply in_app_or in Ix. destruct Ix as [Ix|Ix]; [assumption|]. exfalso.
        assert (L := H x1 x (or_introl eq_refl) Ix). assert (I1 : In x1 (x :: l)) by (apply (Permutation_in _ (Permutation_sym P)); left; reflexivity). destruct I1 as [->|I1].
        - assert (Q := H x1 x1 (or_introl eq_refl) Ix). destruct (in_split _ _ Ix) as (u1 & u2 & E). subst l2. assert (In x1 l). { assert (P' : Permutation (x1 :: l) (x1 :: l1 ++ u1 ++ x1 :: u2)) by exact P. apply Permutation_cons_inv in P'. apply (Permutation_in _ (Permutation_sym P')). apply in_or_app. right. apply in_or_app. right. left. reflexivity. }
          rewrite Forall_forall in F. exact (Hlt _ _ Q (F x1 H0)).
        - rewrite Forall_forall in F. exact (Hlt _ _ L (F x1 I1)). }
      apply in_split in I. destruct I as (u1 & u2 & E). rewrite E in P, H |- *.
      assert (P' : Permutation l ((u1 ++ u2) ++ l2)).
      { apply Permutation_cons_inv with (a := x). eapply Permutation_trans; [exact P|]. rewrite <- !app_assoc. cbn [app]. apply Permutation_sym, Permutation_middle. }
      destruct (IH (u1 ++ u2) l2 P') as (m1 & m2 & -> & Q1 & Q2).
      { intros a b Ia Ib. apply H; [|assumption]. apply in_app_or in Ia. apply in_or_app. cbn [In]. tauto. }
      exists (x :: m1), m2. split; [reflexivity|]. split; [|assumption]. eapply Permutation_trans; [apply perm_skip; exact Q1|]. apply Permutation_middle.
Qed.
Lemma class_card_sum t y c : class_card t y c = qsum (map2 (fun m k => if Z.eqb k c then m else 0) t y).
Proof.
  unfold class_card, zip. revert y. induction t as [|m t IH]; intros [|k y]; try reflexivity. cbn [combine filter map2 fst snd]. rewrite qsum_cons, <- IH. destruct (Z.eqb k c); cbn [map fst]; rewrite ?qsum_cons; [reflexivity|]. ring.
Qed.
Lemma class_mass_card vars X y a i c : class_card (map (fun row => lit_degree vars row (a, i)) X) y c = class_mass vars X y a i c.
Proof.
  rewrite class_card_sum. unfold class_mass. f_equal. revert y. induction X as [|r X IH]; intros [|k y]; try reflexivity. cbn [map map2]. rewrite IH. reflexivity.
Qed.
Lemma share_of vars X y a i c : positive_share (map (fun row => lit_degree vars row (a, i)) X) y c = if qeqb (set_mass vars X a i) 0 then None else Some (share vars X y a i c).
Proof. unfold positive_share, share. rewrite class_mass_card. reflexivity. Qed.
Lemma least_first y c : least y c <-> nth_error (zunique y) 0 = Some c.
Proof.
  assert (S := zunique_sorted y). destruct (zunique y) as [|f u] eqn:E; cbn [nth_error].
  - split; [|discriminate]. intros (I & _). apply zunique_In in I. rewrite E in I. destruct I.
  - assert (M : forall c', In c' y -> (f <= c')%Z).
    { intros c' I. apply zunique_In in I. rewrite E in I. destruct I as [->|I]; [lia|]. inversion S as [|? ? _ F]; subst. rewrite Forall_forall in F. specialize (F c' I). lia. }
    assert (If : In f y) by (apply zunique_In; rewrite E; left; reflexivity).
    split; [intros (I & L); f_equal; specialize (M c I); specialize (L f If); lia|]. intro Q. injection Q as <-. split; assumption.
Qed.
Lemma least_ex y : y <> [] -> exists c, least y c.
Proof.
  intro N. destruct (zunique y) as [|f u] eqn:E.
  - exfalso. destruct y as [|c y]; [congruence|]. assert (I : In c (zunique (c :: y))) by (apply zunique_In; left; reflexivity). rewrite E in I. destruct I.
  - exists f. apply least_first. rewrite E. reflexivity.
Qed.
Lemma side_degree_perm vars row a g g' : Permutation g g' -> side_degree vars row (a, g) = side_degree vars row (a, g').
Proof. intro P. unfold side_degree. cbn [fst snd]. apply qsum_perm. apply Permutation_map. assumption. Qed.

Section Choice.
  Variable cfg : fdt_cfg.
  Variable psort : list (string * option Qc) -> list (string * option Qc).
  Variable X : list (list cell).
  Variable y : list Z.
  Variable cats : list string.
  Hypothesis HC : bcontext cfg psort X y cats.
  Let vars := f_vars cfg.
  Let XM := exact_mem vars X.
  Let Hsort := proj1 HC.
  Let Hnames := proj1 (proj2 HC).
  Let Hlen := proj1 (proj2 (proj2 HC)).
  Let Hy := proj1 (proj2 (proj2 (proj2 HC))).
  Let Hcats := proj2 (proj2 (proj2 (proj2 HC))).
  Let ND : NoDup (map fv_name vars) := proj1 Hnames.

  Definition keyed (v : fvar) (a : nat) (c : Z) (l : list nat) : list (string * option Qc) :=
    map (fun i => (set_name v i, positive_share (map (fun row => lit_degree vars row (a, i)) X) y c)) l.
  Lemma keyed_ok p a v c : nth_error vars a = Some v ->
    mapM (fun val => do col <- set_column XM (fv_name v) val; Ok (val, positive_share col y c)) (map (set_name v) (available vars p a)) = Ok (keyed v a c (available vars p a)).
  Proof.
    intro Hv. assert (K : forall l', incl l' (available vars p a) -> mapM (fun val => do col <- set_column XM (fv_name v) val; Ok (val, positive_share col y c)) (map (set_name v) l') = Ok (keyed v a c l')).
    { induction l' as [|i l' IH]; intro Hi; [reflexivity|]. cbn [map mapM].
      destruct (@available_valid vars p a i v Hv (Hi i (or_introl eq_refl))) as [s Hs]. unfold XM, vars in *. rewrite (@set_column_ok cfg X Hnames a v i s Hv Hs). cbn [bind].
      rewrite IH by (intros x Hx; apply Hi; right; assumption). reflexivity. }
    apply K. intros x Hx. assumption.
  Qed.
  (** the partitions of a feature are the cuts of one sequence of its available sets *)
  Lemma parts_of p ps a v l r : nth_error vars a = Some v -> binary_partitions psort cats (fd_of cfg p) XM y = Ok ps ->
    exists c, least y c /\ (In (fv_name v, l, r) ps <-> In (fv_name v, l, r) (cuts (fv_name v) (if memb (fv_name v) cats then map fst (psort (keyed v a c (available vars p a))) else map (set_name v) (available vars p a)))).
  Proof.
    intros Hv E. destruct (least_ex Hy) as (c & Lc). exists c. split; [assumption|]. rewrite (@partitions_In psort cats _ _ _ _ (fv_name v) l r E).
    assert (FG := @fd_get cfg Hnames p a v Hv). apply least_first in Lc.
    assert (EN : entry_partitions psort cats XM y c (fv_name v, map (set_name v) (available vars p a)) = Ok (cuts (fv_name v) (if memb (fv_name v) cats then map fst (psort (keyed v a c (available vars p a))) else map (set_name v) (available vars p a)))).
    { unfold entry_partitions. cbn [fst snd]. destruct (memb (fv_name v) cats); [|reflexivity]. rewrite (@keyed_ok p a v c Hv). reflexivity. }
    split.
    - intros (c' & sets & qs & C & I & Q & IQ). assert (c' = c) by congruence. subst c'.
      assert (sets = map (set_name v) (available vars p a)).
      { assert (NK : NoDup (dkeys (fd_of cfg p))) by (rewrite fd_keys; exact ND). assert (D := @dget_nodup _ _ _ (fv_name v) sets (fd_of cfg p) NK I). unfold vars in *. congruence. }
      subst sets. rewrite EN in Q. assert (qs = cuts (fv_name v) (if memb (fv_name v) cats then map fst (psort (keyed v a c (available vars p a))) else map (set_name v) (available vars p a))) by congruence. subst qs. assumption.
    - intro I. exists c, (map (set_name v) (available vars p a)). eexists. split; [assumption|]. split; [apply dget_In; exact FG|]. split; [exact EN|assumption].
  Qed.
  Lemma names_inj p a v : nth_error vars a = Some v -> forall g g', incl g (available vars p a) -> incl g' (available vars p a) -> map (set_name v) g = map (set_name v) g' -> g = g'.
  Proof.
    intro Hv. induction g as [|i g IH]; intros [|j g'] I I' E; try discriminate; [reflexivity|]. cbn [map] in E. injection E as E1 E2.
    destruct (@available_valid vars p a i v Hv (I i (or_introl eq_refl))) as [s Hs]. destruct (@available_valid vars p a j v Hv (I' j (or_introl eq_refl))) as [s' Hs'].
    f_equal; [exact (@set_name_inj v i j s s' (@vsets cfg Hnames a v Hv) Hs Hs' E1)|]. apply IH; [| |assumption]; intros x Hx; [apply I|apply I']; right; assumption.
  Qed.
  Definition key_le (k k' : string * option Qc) : Prop := match snd k, snd k' with Some s, Some s' => s <= s' | _, _ => False end.
  Definition key_lt (k k' : string * option Qc) : Prop := match snd k, snd k' with Some s, Some s' => s < s' | _, _ => False end.
  Lemma keyed_some v a c l : (forall i, In i l -> set_mass vars X a i <> 0) -> keyed v a c l = map (fun i => (set_name v i, Some (share vars X y a i c))) l.
  Proof.
    intro M. unfold keyed. apply map_ext_in. intros i Hi. rewrite share_of. destruct (qeqb (set_mass vars X a i) 0) eqn:Q; [|reflexivity]. rewrite qeqb_eq in Q. destruct (M i Hi Q).
  Qed.
  Lemma candidate_scored p ps a g1 g2 : sorts psort -> binary_partitions psort cats (fd_of cfg p) XM y = Ok ps -> candidate cfg X y p a g1 g2 ->
    exists v h1 h2, nth_error vars a = Some v /\ Permutation h1 g1 /\ Permutation h2 g2 /\ incl h1 (available vars p a) /\ incl h2 (available vars p a) /\ In (fv_name v, map (set_name v) h1, map (set_name v) h2) ps.
  Proof.
    intros SO E (v & Hv & N1 & N2 & CC & CD). exists v. assert (Hc := Hcats v (nth_error_In _ _ Hv)).
    assert (NN : forall A B (f : A -> B) (l : list A), l <> [] -> map f l <> []) by (intros A B f [|x l] Q; [congruence|discriminate]).
    destruct (memb (fv_name v) cats) eqn:B.
    - assert (NC : ~ continuous v) by (apply (proj1 Hc), (proj1 (@memb_In _ _ (fv_name v) cats)); exact B). destruct (CD NC) as (Pm & MS & SH).
      destruct (least_ex Hy) as (c0 & Lc0). destruct (@parts_of p ps a v [] [] Hv E) as (c & Lc & _).
      assert (MS' : forall i, In i (available vars p a) -> set_mass vars X a i <> 0) by (intros i Hi; apply MS; apply (Permutation_in _ (Permutation_sym Pm)); assumption).
      assert (EK := @keyed_some v a c _ MS').
      assert (SS : StronglySorted key_le (psort (keyed v a c (available vars p a)))).
      { apply SO. rewrite EK. apply Forall_forall. intros k Hk. apply in_map_iff in Hk. destruct Hk as (i & <- & _). discriminate. }
      assert (PM : Permutation (psort (keyed v a c (available vars p a))) (keyed v a c g1 ++ keyed v a c g2)).
      { eapply Permutation_trans; [apply Hsort|]. unfold keyed. rewrite <- map_app. apply Permutation_map, Permutation_sym. exact Pm. }
      assert (I1 : incl g1 (available vars p a)) by (intros x Hx; apply (Permutation_in _ Pm); apply in_or_app; left; assumption).
      assert (I2 : incl g2 (available vars p a)) by (intros x Hx; apply (Permutation_in _ Pm); apply in_or_app; right; assumption).
      destruct (@sorted_cut _ key_lt key_le) with (l := psort (keyed v a c (available vars p a))) (l1 := keyed v a c g1) (l2 := keyed v a c g2) as (m1 & m2 & EM & Q1 & Q2); try assumption.
      { intros [x [s|]] [z [s'|]]; unfold key_lt, key_le; cbn [snd]; try contradiction. intros. qlra. }
      { intros x z Ix Iz. rewrite keyed_some in Ix by (intros; apply MS', I1; assumption). rewrite keyed_some in Iz by (intros; apply MS', I2; assumption). apply in_map_iff in Ix. apply in_map_iff in Iz. destruct Ix as (i & <- & Ii), Iz as (j & <- & Ij). unfold key_lt. cbn [snd]. apply SH; assumption. }
      unfold keyed in Q1, Q2. apply Permutation_map_inv in Q1. apply Permutation_map_inv in Q2. destruct Q1 as (h1 & -> & Q1). destruct Q2 as (h2 & -> & Q2).
      exists h1, h2. split; [assumption|]. split; [apply Permutation_sym; assumption|]. split; [apply Permutation_sym; assumption|].
      split; [intros x Hx; apply I1, (Permutation_in _ (Permutation_sym Q1)); assumption|]. split; [intros x Hx; apply I2, (Permutation_in _ (Permutation_sym Q2)); assumption|].
      destruct (@parts_of p ps a v (map (set_name v) h1) (map (set_name v) h2) Hv E) as (c' & Lc' & ->). assert (c' = c) by (apply least_first in Lc; apply least_first in Lc'; congruence). subst c'. rewrite B, EM. rewrite map_app, !map_map. cbn [fst].
      apply cuts_complete; [reflexivity| |]; apply NN; intro Z; subst; [apply Permutation_sym, Permutation_nil in Q1|apply Permutation_sym, Permutation_nil in Q2]; contradiction.
    - assert (NI : ~ In (fv_name v) cats) by (intro K; apply (proj2 (@memb_In _ _ (fv_name v) cats)) in K; congruence). assert (C : continuous v).
      { destruct v as [nm [|[fc|d d0] u]]; unfold continuous in *; cbn [fv_sets fv_name] in *; [exfalso; apply NI, Hc; intros (c & l & Q); discriminate|eauto|exfalso; apply NI, Hc; intros (c & l & Q); discriminate]. }
      assert (A := CC C). exists g1, g2. split; [assumption|]. split; [apply Permutation_refl|]. split; [apply Permutation_refl|].
      split; [unfold vars; rewrite <- A; intros x Hx; apply in_or_app; left; assumption|]. split; [unfold vars; rewrite <- A; intros x Hx; apply in_or_app; right; assumption|].
      destruct (@parts_of p ps a v (map (set_name v) g1) (map (set_name v) g2) Hv E) as (c' & Lc' & ->). rewrite B. unfold vars. rewrite <- A, map_app. apply cuts_complete; [reflexivity| |]; apply NN; assumption.
  Qed.
  Lemma shares_divided p mu a g1 g2 lmu rmu : shares cfg X y p mu a g1 g2 lmu rmu -> divided vars X p mu a g1 g2 lmu rmu.
  Proof.
    intros (S1 & S2). split; [exact S1|]. intro IN. destruct (S2 IN) as (A & (L & M) & E1 & E2). exists A. split; [congruence|]. split; [|cbv zeta; split; [exact E1|exact E2]].
    apply Forall_forall. intros x Hx. destruct (In_nth _ _ 0 Hx) as (j & Lj & <-). rewrite L in Lj. destruct (M j Lj) as [Z|(Z & _)]; auto.
  Qed.
  Lemma divided_perm p mu a g1 g2 h1 h2 lmu rmu : Permutation h1 g1 -> Permutation h2 g2 -> divided vars X p mu a h1 h2 lmu rmu -> divided vars X p mu a g1 g2 lmu rmu.
  Proof.
    intros P1 P2 H. unfold divided in *. assert (D : forall g h, Permutation h g -> degrees vars X a h = degrees vars X a g) by (intros g h P; unfold degrees; apply map_ext; intro row; apply side_degree_perm; assumption).
    rewrite (D _ _ P1), (D _ _ P2) in H. exact H.
  Qed.
  Lemma scored_candidate p mu ps g a g1 g2 : sorts psort -> binary_partitions psort cats (fd_of cfg p) XM y = Ok ps -> scored cfg X y p mu ps g -> candidate cfg X y p a g1 g2 ->
    exists lmu rmu, divided vars X p mu a g1 g2 lmu rmu /\ (bgain y mu lmu rmu <= g)%R.
  Proof.
    intros SO E SC C. destruct (@candidate_scored p ps a g1 g2 SO E C) as (v & h1 & h2 & Hv & P1 & P2 & I1 & I2 & IN).
    destruct (SC _ _ _ IN) as (b & w & k1 & k2 & lmu & rmu & Hw & EN & E1 & E2 & J1 & J2 & SH & G).
    assert (a = b) by exact (@index_inj cfg Hnames a b v w Hv Hw EN). subst b. assert (w = v) by (unfold vars in *; congruence). subst w.
    assert (k1 = h1) by (apply (@names_inj p a v Hv); [assumption|assumption|congruence]). assert (k2 = h2) by (apply (@names_inj p a v Hv); [assumption|assumption|congruence]). subst k1 k2.
    exists lmu, rmu. split; [|assumption]. apply (@divided_perm p mu a g1 g2 h1 h2); try assumption. apply shares_divided. assumption.
  Qed.
  Lemma chosen_sorted p ps a v g1 g2 c : sorts psort -> binary_partitions psort cats (fd_of cfg p) XM y = Ok ps -> nth_error vars a = Some v -> ~ continuous v ->
    In (fv_name v, map (set_name v) g1, map (set_name v) g2) ps -> incl g1 (available vars p a) -> incl g2 (available vars p a) -> (forall i, In i (available vars p a) -> set_mass vars X a i <> 0) -> least y c ->
    forall i j, In i g1 -> In j g2 -> share vars X y a i c <= share vars X y a j c.
  Proof.
    intros SO E Hv NC IN I1 I2 MS Lc i j Hi Hj. destruct (@parts_of p ps a v (map (set_name v) g1) (map (set_name v) g2) Hv E) as (c' & Lc' & Q). assert (c' = c) by (apply least_first in Lc; apply least_first in Lc'; congruence). subst c'.
    apply Q in IN. clear Q. rewrite (proj2 (@memb_In _ _ (fv_name v) cats) (proj2 (Hcats v (nth_error_In _ _ Hv)) NC)) in IN. apply cuts_In in IN. destruct IN as (l & r & EM & _ & _ & Q). injection Q as El Er. subst l r.
    assert (EK := @keyed_some v a c _ MS).
    assert (SS : StronglySorted key_le (psort (keyed v a c (available vars p a)))).
    { apply SO. rewrite EK. apply Forall_forall. intros k Hk. apply in_map_iff in Hk. destruct Hk as (i' & <- & _). discriminate. }
    apply map_eq_app in EM. destruct EM as (m1 & m2 & EM & F1 & F2). rewrite EM in SS.
    assert (KI : forall g m, incl g (available vars p a) -> map fst m = map (set_name v) g -> (forall k, In k m -> In k (keyed v a c (available vars p a))) -> forall i, In i g -> In (set_name v i, Some (share vars X y a i c)) m).
    { intros g m Ig F Im i' Hi'. assert (In (set_name v i') (map fst m)) by (rewrite F; apply in_map; assumption). apply in_map_iff in H. destruct H as ((nm & k) & Q & Ik). cbn [fst] in Q. subst nm. assert (Ik' := Im _ Ik). rewrite EK in Ik'. apply in_map_iff in Ik'. destruct Ik' as (i2 & Q & Ii2). injection Q as Q1 Q2.
      destruct (@available_valid vars p a i2 v Hv Ii2) as [s Hs]. destruct (@available_valid vars p a i' v Hv (Ig i' Hi')) as [s' Hs']. rewrite (@set_name_inj v i2 i' s s' (@vsets cfg Hnames a v Hv) Hs Hs' Q1) in Q2. rewrite Q2. assumption. }
    assert (IM : forall k, In k (m1 ++ m2) -> In k (keyed v a c (available vars p a))) by (intros k Hk; apply (Permutation_in _ (Hsort _)); rewrite EM; assumption).
    assert (K1 := KI g1 m1 I1 F1 (fun k Hk => IM k (in_or_app _ _ _ (or_introl Hk))) i Hi). assert (K2 := KI g2 m2 I2 F2 (fun k Hk => IM k (in_or_app _ _ _ (or_intror Hk))) j Hj).
    clear - SS K1 K2. induction m1 as [|k m1 IH]; [destruct K1|]. cbn [app] in SS. inversion SS as [|? ? S F]; subst. destruct K1 as [->|K1]; [|exact (IH S K1)]. rewrite Forall_forall in F. exact (F _ (in_or_app _ _ _ (or_intror K2))).
  Qed.
End Choice.
