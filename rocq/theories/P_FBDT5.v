(** * What the marks do: memberships of the children of a split *)
From Verif Require Import Prelude M_Fuzzy M_Discretize M_Rule M_FDT S_Rule S_FDT P_FuzzyVar P_Entropy P_FDT P_FDT2 M_FBDT S_FBDT S_FBDT2 S_FBDTPrivate P_FBDT P_FBDT2 P_FBDT4 P_Counterfactual.
From Coq Require Import Reals Lra.
Set Implicit Arguments.
Open Scope Qc_scope.

Lemma nth_map2 (f : Qc -> Qc -> Qc) l l' j : (j < List.length l)%nat -> (j < List.length l')%nat -> nth j (map2 f l l') 0 = f (nth j l 0) (nth j l' 0).
Proof. revert l' j. induction l as [|x l IH]; intros [|z l'] j L L'; cbn in L, L'; try lia. destruct j as [|j]; [reflexivity|]. cbn [map2 nth]. apply IH; lia. Qed.
Lemma nth_mark m A j : (j < List.length m)%nat -> (j < List.length A)%nat -> nth j (mark m A) 0 = if qltb 0 (nth j m 0) && qltb (nth j m 0) 1 then 1 else nth j A 0.
Proof. intros L L'. unfold mark. rewrite nth_map2 by assumption. reflexivity. Qed.
Lemma qmax_cases x a : qmax x a = x \/ qmax x a = a.
Proof. unfold qmax. destruct (qltb _ _); auto. Qed.

Section Shares.
  Variable cfg : fdt_cfg.
  Variable psort : list (string * option Qc) -> list (string * option Qc).
  Variable X : list (list cell).
  Variable y : list Z.
  Variable cats : list string.
  Hypothesis HC : bcontext cfg psort X y cats.
  Let vars := f_vars cfg.
  Let XM := exact_mem vars X.
  Let n := List.length y.
  Let Hsort := proj1 HC.
  Let Hnames := proj1 (proj2 HC).
  Let Hlen := proj1 (proj2 (proj2 HC)).
  Let Hy := proj1 (proj2 (proj2 (proj2 HC))).
  Let Hcats := proj2 (proj2 (proj2 (proj2 HC))).
  Let ND : NoDup (map fv_name vars) := proj1 Hnames.

  (** marks are 0 or 1, and only rows lying partly in some group of the feature's sets are marked *)
  Definition marked (a : nat) (A : list Qc) : Prop :=
    List.length A = n /\ forall j, (j < n)%nat -> nth j A 0 = 0 \/
      nth j A 0 = 1 /\ exists g, incl g (seq 0 (nsets vars a)) /\ 0 < side_degree vars (nth j X []) (a, g) /\ side_degree vars (nth j X []) (a, g) < 1.
  Lemma nth_side a g j : (j < n)%nat -> nth j (side_sum cfg X a g) 0 = side_degree vars (nth j X []) (a, g).
  Proof. intro L. unfold side_sum. rewrite (nth_indep _ 0 (side_degree vars [] (a, g))) by (rewrite map_length, Hlen; exact L). apply (map_nth (fun row => side_degree vars row (a, g))). Qed.
  Lemma side_length a g : List.length (side_sum cfg X a g) = n.
  Proof. unfold side_sum. rewrite map_length. exact Hlen. Qed.
  Lemma marked_mark a A g : marked a A -> incl g (seq 0 (nsets vars a)) -> marked a (mark (map2 qmax (side_sum cfg X a g) A) A).
  Proof.
    intros (L & M) I. assert (SL := side_length a g). split; [rewrite mark_length; congruence|]. intros j Lj.
    rewrite nth_mark, nth_map2 by (rewrite ?map2_length, ?SL, ?L, ?Nat.min_id; assumption). rewrite nth_side by assumption.
    destruct (qltb 0 (qmax (side_degree vars (nth j X []) (a, g)) (nth j A 0)) && qltb (qmax (side_degree vars (nth j X []) (a, g)) (nth j A 0)) 1)%bool eqn:E; [|exact (M j Lj)].
    apply between_iff in E. right. split; [reflexivity|]. destruct (qmax_cases (side_degree vars (nth j X []) (a, g)) (nth j A 0)) as [Q|Q]; rewrite Q in E; [exists g; tauto|].
    exfalso. destruct (M j Lj) as [Z|(Z & _)]; rewrite Z in E; destruct E as (E1 & E2); [|]; qlra.
  Qed.
  Lemma marked_zero a : marked a (repeat 0 n).
  Proof. split; [apply repeat_length|]. intros j _. left. apply nth_repeat. Qed.
  Lemma qmax_side_zero a g : map2 qmax (side_sum cfg X a g) (repeat 0 n) = side_sum cfg X a g.
  Proof.
    assert (S := @side_sum_ok cfg X y Hlen a g). destruct S as (L & F). fold n in L. rewrite <- L. clear L. induction F as [|x l H F IH]; [reflexivity|]. cbn [List.length repeat map2]. rewrite IH. f_equal. unfold qmax. destruct (qltb _ _) eqn:E; [|reflexivity]. first [rewrite qltb_lt in E; exfalso; qlra | apply Qcle_antisym; [assumption|]; rewrite qltb_ge in E; assumption].
  Qed.
  Lemma marked_fresh a g : incl g (seq 0 (nsets vars a)) -> marked a (mark (side_sum cfg X a g) (repeat 0 n)).
  Proof. intro I. assert (M := @marked_mark a (repeat 0 n) g (marked_zero a) I). rewrite qmax_side_zero in M. exact M. Qed.
  Definition good (p : list glit) (vign : marks) : Prop :=
    (forall a v, nth_error vars a = Some v -> (In a (map fst p) <-> dget (fv_name v) vign <> None)) /\
    forall a v A, nth_error vars a = Some v -> dget (fv_name v) vign = Some A -> marked a A.
  Definition vsplit_ok (p : list glit) (mu : list Qc) (w : vsplit) : Prop :=
    exists a v g1 g2, split_ok cfg p a v g1 g2 /\ v_att w = fv_name v /\ v_left w = map (set_name v) g1 /\ v_right w = map (set_name v) g2 /\
      (~ In a (map fst p) -> v_lmu w = map2 qmin mu (side_sum cfg X a g1) /\ v_rmu w = map2 qmin mu (side_sum cfg X a g2) /\ marked a (v_lmarks w) /\ marked a (v_rmarks w)) /\
      (In a (map fst p) -> exists A, marked a A /\ v_lmu w = map2 qmin mu (map2 qmax (side_sum cfg X a g1) A) /\
         v_rmu w = map2 qmin mu (map2 qmax (side_sum cfg X a g2) (mark (map2 qmax (side_sum cfg X a g1) A) A))).
  Lemma avail_seq p a g : incl g (available vars p a) -> incl g (seq 0 (nsets vars a)).
  Proof. intros I x Hx. specialize (I x Hx). unfold available in I. apply filter_In in I. apply I. Qed.
  Lemma good_set p vign a v A : good p vign -> nth_error vars a = Some v -> dget (fv_name v) vign <> None -> marked a A -> good p (dset (fv_name v) A vign).
  Proof.
    intros (G1 & G2) Hv N M. split.
    - intros b w Hw. rewrite (G1 b w Hw), dset_get. unfold eqb. destruct (eq_dec (fv_name w) (fv_name v)) as [Q|Q]; [|reflexivity]. rewrite Q. split; [discriminate|intros _; exact N].
    - intros b w B Hw. rewrite dset_get. unfold eqb. destruct (eq_dec (fv_name w) (fv_name v)) as [Q|Q]; [|exact (G2 b w B Hw)]. intro E. injection E as <-. rewrite (@index_inj cfg Hnames a b v w Hv Hw (eq_sym Q)) in M. exact M.
  Qed.
  Lemma side_good p mu vign a v g vign' mu' B : good p vign -> nth_error vars a = Some v -> incl g (available vars p a) -> vscore_side mu vign XM n (fv_name v) (map (set_name v) g) = Ok (vign', mu', B) ->
    good p vign' /\ (~ In a (map fst p) -> vign' = vign /\ mu' = map2 qmin mu (side_sum cfg X a g) /\ marked a B) /\
    (In a (map fst p) -> exists A, marked a A /\ dget (fv_name v) vign = Some A /\ dget (fv_name v) vign' = Some (mark (map2 qmax (side_sum cfg X a g) A) A) /\ mu' = map2 qmin mu (map2 qmax (side_sum cfg X a g) A)).
  Proof.
    intros G Hv I H. unfold vscore_side in H. assert (S := @sum_sets_ok cfg X y Hnames Hlen p a v g Hv I). unfold XM, n, vars in H. rewrite S in H. cbn [bind] in H. cbv zeta in H. assert (IA := proj1 G a v Hv). destruct (dget (fv_name v) vign) as [A|] eqn:E.
    - assert (M := proj2 G a v A Hv E). assert (IN : In a (map fst p)) by (apply IA; discriminate). assert (Q1 : vign' = dset (fv_name v) (mark (map2 qmax (side_sum cfg X a g) A) A) vign) by (injection H; intros; subst; reflexivity). assert (Q2 : mu' = map2 qmin mu (map2 qmax (side_sum cfg X a g) A)) by congruence. clear H. subst vign' mu'.
      split; [apply (@good_set p vign a v _ G Hv); [congruence|]; exact (@marked_mark a A g M (@avail_seq p a g I))|]. split; [contradiction|]. intros _. exists A. rewrite dset_get, eqb_refl. auto.
    - assert (NI : ~ In a (map fst p)) by (rewrite IA; intro K; apply K; reflexivity). assert (Q1 : vign' = vign) by congruence. assert (Q2 : mu' = map2 qmin mu (side_sum cfg X a g)) by congruence. assert (Q3 : B = mark (side_sum cfg X a g) (repeat 0 (List.length y))) by congruence. subst.
      split; [assumption|]. split; [|contradiction]. intros _. split; [reflexivity|]. split; [reflexivity|]. exact (@marked_fresh a g (@avail_seq p a g I)).
  Qed.
  Lemma fold_good p mu ps : (forall q, In q ps -> part_ok cfg p q) -> forall vign w vign' w', good p vign -> (forall w0, w = Some w0 -> vsplit_ok p mu w0) ->
    foldM (vscore_partition XM y mu) (vign, w) ps = Ok (vign', w') -> good p vign' /\ forall w0, w' = Some w0 -> vsplit_ok p mu w0.
  Proof.
    induction ps as [|q ps IH]; intros Hq vign w vign' w' G W H.
    - cbn [foldM] in H. assert (vign' = vign /\ w' = w) by (split; congruence). destruct H0 as (-> & ->). auto.
    - cbn [foldM] in H. destruct (Hq q (or_introl eq_refl)) as (a & v & g1 & g2 & SO & ->). assert (SO' := SO). destruct SO' as (Hv & N1 & N2 & Pm & C).
      assert (I1 : incl g1 (available vars p a)) by (intros x Hx; apply (Permutation_in _ Pm); apply in_or_app; left; assumption).
      assert (I2 : incl g2 (available vars p a)) by (intros x Hx; apply (Permutation_in _ Pm); apply in_or_app; right; assumption).
      unfold vscore_partition at 1 in H. cbn [fst snd] in H. fold n in H.
      destruct (vscore_side mu vign XM n (fv_name v) (map (set_name v) g1)) as [[[v1 lmu] lm]|] eqn:E1; [|discriminate]. cbn [bind] in H.
      destruct (vscore_side mu v1 XM n (fv_name v) (map (set_name v) g2)) as [[[v2 rmu] rm]|] eqn:E2; [|discriminate]. cbn [bind] in H.
      destruct (split_gain mu lmu rmu y) as [g|]; [|discriminate]. cbn [bind] in H.
      destruct (@side_good p mu vign a v g1 _ _ _ G Hv I1 E1) as (G1 & A1 & B1). destruct (@side_good p mu v1 a v g2 _ _ _ G1 Hv I2 E2) as (G2 & A2 & B2).
      refine (IH (fun q Hin => Hq q (or_intror Hin)) v2 _ vign' w' G2 _ H). intros w0 Q. destruct (Rltb (vbest_gain w) g); [|exact (W w0 Q)]. injection Q as <-.
      exists a, v, g1, g2. cbn [v_att v_left v_right v_lmu v_rmu v_lmarks v_rmarks]. split; [assumption|]. split; [reflexivity|]. split; [reflexivity|]. split; [reflexivity|]. split.
      + intro NI. destruct (A1 NI) as (-> & -> & M1). destruct (A2 NI) as (_ & -> & M2). auto.
      + intro IN. destruct (B1 IN) as (A & M & EA & EA1 & ->). destruct (B2 IN) as (A' & M' & EA' & _ & ->). rewrite EA1 in EA'. injection EA' as <-. exists A. auto.
  Qed.
  Definition shares (p : list glit) (mu : list Qc) (a : nat) (g1 g2 : list nat) (lmu rmu : list Qc) : Prop :=
    (~ In a (map fst p) -> lmu = map2 qmin mu (side_sum cfg X a g1) /\ rmu = map2 qmin mu (side_sum cfg X a g2)) /\
    (In a (map fst p) -> exists A, marked a A /\ lmu = map2 qmin mu (map2 qmax (side_sum cfg X a g1) A) /\
         rmu = map2 qmin mu (map2 qmax (side_sum cfg X a g2) (mark (map2 qmax (side_sum cfg X a g1) A) A))).
  (** every partition of [ps] was scored, none better than [g] *)
  Definition scored (p : list glit) (mu : list Qc) (ps : list partition) (g : R) : Prop :=
    forall f l r, In (f, l, r) ps -> exists a v g1 g2 lmu rmu, nth_error vars a = Some v /\ f = fv_name v /\ l = map (set_name v) g1 /\ r = map (set_name v) g2 /\
      incl g1 (available vars p a) /\ incl g2 (available vars p a) /\ shares p mu a g1 g2 lmu rmu /\ (bgain y mu lmu rmu <= g)%R.
  Lemma fold_best p mu ps : (forall q, In q ps -> part_ok cfg p q) -> forall vign w vign' w', good p vign ->
    foldM (vscore_partition XM y mu) (vign, w) ps = Ok (vign', w') ->
    (vbest_gain w <= vbest_gain w')%R /\ scored p mu ps (vbest_gain w') /\
    (w' = w \/ exists w0, w' = Some w0 /\ (vbest_gain w < v_gain w0)%R /\ v_gain w0 = bgain y mu (v_lmu w0) (v_rmu w0) /\ In (v_att w0, v_left w0, v_right w0) ps).
  Proof.
    induction ps as [|q ps IH]; intros Hq vign w vign' w' G H.
    - cbn [foldM] in H. assert (vign' = vign /\ w' = w) by (split; congruence). destruct H0 as (-> & ->). split; [apply Rle_refl|]. split; [intros f l r []|left; reflexivity].
    - cbn [foldM] in H. destruct (Hq q (or_introl eq_refl)) as (a & v & g1 & g2 & SO & ->). assert (SO' := SO). destruct SO' as (Hv & N1 & N2 & Pm & C).
      assert (I1 : incl g1 (available vars p a)) by (intros x Hx; apply (Permutation_in _ Pm); apply in_or_app; left; assumption).
      assert (I2 : incl g2 (available vars p a)) by (intros x Hx; apply (Permutation_in _ Pm); apply in_or_app; right; assumption).
      unfold vscore_partition at 1 in H. cbn [fst snd] in H. fold n in H.
      destruct (vscore_side mu vign XM n (fv_name v) (map (set_name v) g1)) as [[[v1 lmu] lm]|] eqn:E1; [|discriminate]. cbn [bind] in H.
      destruct (vscore_side mu v1 XM n (fv_name v) (map (set_name v) g2)) as [[[v2 rmu] rm]|] eqn:E2; [|discriminate]. cbn [bind] in H.
      destruct (split_gain mu lmu rmu y) as [g|] eqn:EG; [|discriminate]. cbn [bind] in H.
      assert (GB : g = bgain y mu lmu rmu).
      { unfold split_gain in EG. destruct (qeqb (qsum mu) 0); [discriminate|]. injection EG as <-. reflexivity. }
      destruct (@side_good p mu vign a v g1 _ _ _ G Hv I1 E1) as (G1 & A1 & B1). destruct (@side_good p mu v1 a v g2 _ _ _ G1 Hv I2 E2) as (G2 & A2 & B2).
      assert (SH : shares p mu a g1 g2 lmu rmu).
      { split.
        - intro NI. destruct (A1 NI) as (-> & -> & M1). destruct (A2 NI) as (_ & -> & M2). auto.
        - intro IN. destruct (B1 IN) as (A & M & EA & EA1 & ->). destruct (B2 IN) as (A' & M' & EA' & _ & ->). rewrite EA1 in EA'. injection EA' as <-. exists A. auto. }
      destruct (IH (fun q Hin => Hq q (or_intror Hin)) v2 _ vign' w' G2 H) as (L & SC & D). clear IH H.
      assert (L' : (vbest_gain w <= vbest_gain w')%R /\ (g <= vbest_gain w')%R).
      { destruct (Rltb (vbest_gain w) g) eqn:RL; [apply Rltb_lt in RL; cbn [vbest_gain v_gain] in L; lra|]. apply Rltb_ge in RL. lra. }
      split; [apply L'|]. split.
      + intros f l r [Q|Q]; [|exact (SC f l r Q)]. exists a, v, g1, g2, lmu, rmu. injection Q as <- <- <-. rewrite <- GB. splits; try reflexivity; try assumption. apply L'.
      + destruct (Rltb (vbest_gain w) g) eqn:RL.
        * apply Rltb_lt in RL. right. destruct D as [->|(w0 & -> & D1 & D2 & D3)].
          -- exists (mkVS (fv_name v) g lmu rmu (map (set_name v) g1) (map (set_name v) g2) lm rm). cbn [v_att v_gain v_lmu v_rmu v_left v_right]. splits; try assumption; [reflexivity|left; reflexivity].
          -- exists w0. cbn [vbest_gain v_gain] in D1. splits; try assumption; [reflexivity|lra|right; assumption].
        * destruct D as [->|(w0 & -> & D1 & D2 & D3)]; [left; reflexivity|]. right. exists w0. splits; try assumption; [reflexivity|right; assumption].
  Qed.
  Definition vfitted (p : list glit) (node : btree) (vign : marks) (t : btree) : Prop :=
    mu_ok y (b_mu node) /\ 0 < qsum (b_mu node) /\ Forall (fun x => x <= 1) (b_mu node) /\ good p vign /\ exists fuel, vfit_at cfg psort X y cats fuel node vign p = Ok t.
  (** one side of a split: its memberships and the subtree *)
  Definition vside (p : list glit) (mu : list Qc) (a : nat) (v : fvar) (g : list nat) (cmu : list Qc) (c : btree) : Prop :=
    b_mu c = cmu /\ b_value c = Some (a, g) /\
    ((exists vign, vfitted (p ++ [(a, g)]) (BTree true [] None (-1) (Some (a, g)) (Some v) cmu []) vign c) \/ b_leaf c = true /\ qsum cmu = 0 /\ exists cv, get_class_value mu y = Ok cv /\ b_class c = Some cv).
  Lemma vfit_mu fuel node vign p t : vfit_at cfg psort X y cats fuel node vign p = Ok t -> b_mu t = b_mu node /\ b_value t = b_value node.
  Proof.
    destruct fuel as [|fuel]; [discriminate|]. unfold vfit_at. cbn [vfit]. intro H.
    match type of H with bind ?r _ = _ => destruct r as [[vign1 w]|]; [|discriminate] end. cbn [bind] in H.
    destruct (stop_met cfg (vbest_gain w) (masked (b_mu node) y) (bplen p)).
    - destruct (get_class_value (b_mu node) y); [|discriminate]. injection H as <-. auto.
    - destruct w as [w|]; [|destruct (dget ""%string (f_positions (f_vars cfg))); discriminate].
      repeat (match type of H with bind ?r _ = _ => destruct r; [|discriminate] end; cbn [bind] in H). injection H as <-. auto.
  Qed.
  Lemma map2_qmin_ok mu m : mu_ok y mu -> mu_ok y m -> mu_ok y (map2 qmin mu m).
  Proof.
    intros (L1 & F1) (L2 & F2). split; [apply map2_len; assumption|]. apply map2_nonneg; [intros; apply qmin_glb; assumption|assumption|assumption].
  Qed.
  Lemma map2_qmin_le mu m : Forall (fun x => x <= 1) mu -> Forall (fun x => x <= 1) (map2 qmin mu m).
  Proof. intro F. revert m. induction F as [|x mu Hx F IH]; intros [|z m]; cbn [map2]; constructor; [|apply IH]. eapply Qcle_trans; [apply qmin_l|assumption]. Qed.
  Lemma marked_max a g A : marked a A -> mu_ok y (map2 qmax (side_sum cfg X a g) A).
  Proof.
    intros (L & _). destruct (@side_sum_ok cfg X y Hlen a g) as (SL & SN). split; [apply map2_len; assumption|]. apply map2_qmax_nonneg. assumption.
  Qed.
  Lemma good_child p vign a v g m : good p vign -> nth_error vars a = Some v -> (~ In a (map fst p) -> marked a m) -> good (p ++ [(a, g)]) (inherit vign (fv_name v) m).
  Proof.
    intros (G1 & G2) Hv M. unfold inherit. assert (IA := G1 a v Hv). destruct (dget (fv_name v) vign) as [A|] eqn:E.
    - split; [|exact G2]. intros b w Hw. rewrite map_app, in_app_iff. cbn [map fst In]. rewrite (G1 b w Hw). split; [|tauto]. intros [K|[<-|[]]]; [assumption|]. rewrite Hv in Hw. injection Hw as <-. congruence.
    - assert (NI : ~ In a (map fst p)) by (rewrite IA; intro K; apply K; reflexivity). split.
      + intros b w Hw. rewrite map_app, in_app_iff, dset_get. cbn [map fst In]. rewrite (G1 b w Hw). unfold eqb. destruct (eq_dec (fv_name w) (fv_name v)) as [Q|Q].
        * split; [discriminate|]. intros _. right. left. exact (@index_inj cfg Hnames a b v w Hv Hw (eq_sym Q)).
        * split; [|tauto]. intros [K|[<-|[]]]; [assumption|]. rewrite Hv in Hw. injection Hw as <-. congruence.
      + intros b w B Hw. rewrite dset_get. unfold eqb. destruct (eq_dec (fv_name w) (fv_name v)) as [Q|Q]; [|exact (G2 b w B Hw)]. intro K. injection K as <-. rewrite <- (@index_inj cfg Hnames a b v w Hv Hw (eq_sym Q)). exact (M NI).
  Qed.
  Lemma vfitted_cases p node vign t : vfitted p node vign t -> b_children node = [] ->
    b_mu t = b_mu node /\ exists ps g, binary_partitions psort cats (fd_of cfg p) XM y = Ok ps /\ (0 <= g)%R /\ scored p (b_mu node) ps g /\ (
    (b_leaf t = true /\ (exists cv, get_class_value (b_mu node) y = Ok cv /\ b_class t = Some cv) /\ stop_met cfg g (masked (b_mu node) y) (bplen p) = true) \/
    (b_leaf t = false /\ stop_met cfg g (masked (b_mu node) y) (bplen p) = false /\
     exists a v g1 g2 c1 c2 lmu rmu, split_ok cfg p a v g1 g2 /\ b_children t = [c1; c2] /\
      vside p (b_mu node) a v g1 lmu c1 /\ vside p (b_mu node) a v g2 rmu c2 /\ shares p (b_mu node) a g1 g2 lmu rmu /\
      (0 < g)%R /\ g = bgain y (b_mu node) lmu rmu /\ In (fv_name v, map (set_name v) g1, map (set_name v) g2) ps)).
  Proof.
    intros (MO & MP & ML & G & fuel & H) HCh. assert (HB := @vfit_mu fuel node vign p t H). destruct fuel as [|fuel]; [discriminate|]. unfold vfit_at in H. cbn [vfit] in H. unfold vmax_split in H.
    destruct (@partitions_ok cfg psort X y cats Hsort Hnames Hlen Hy Hcats p) as (ps & EP & Hps). rewrite EP in H. cbn [bind] in H.
    match type of H with bind ?r _ = _ => destruct r as [[vign1 w]|] eqn:EF; [|discriminate] end. cbn [bind] in H.
    destruct (@fold_good p (b_mu node) ps Hps vign None vign1 w G (fun w0 (Q : None = Some w0) => match Q with end) EF) as (G1 & W).
    destruct (@fold_best p (b_mu node) ps Hps vign None vign1 w G EF) as (GE & SC & BW). cbn [vbest_gain] in GE, BW.
    split; [exact (proj1 HB)|]. exists ps, (vbest_gain w). split; [assumption|]. split; [assumption|]. split; [assumption|]. clear HB.
    destruct (stop_met cfg (vbest_gain w) (masked (b_mu node) y) (bplen p)) eqn:ST.
    { destruct (get_class_value (b_mu node) y) as [cv|] eqn:GC; [|discriminate]. injection H as <-. left. split; [reflexivity|]. split; [|reflexivity]. exists cv. split; reflexivity. }
    destruct w as [w|]; [|destruct (dget ""%string (f_positions (f_vars cfg))); discriminate].
    destruct (W w eq_refl) as (a & v & g1 & g2 & SO & Ea & El & Er & NF & OF). right. destruct BW as [BW|(w0 & BW & GP & GB & PI)]; [discriminate|]. injection BW as <-. rewrite Ea, El, Er in PI. cbn [vbest_gain]. rewrite Ea, El, Er in H. assert (SO' := SO). destruct SO' as (Hv & N1 & N2 & Pm & C).
    assert (I1 : incl g1 (available vars p a)) by (intros x Hx; apply (Permutation_in _ Pm); apply in_or_app; left; assumption).
    assert (I2 : incl g2 (available vars p a)) by (intros x Hx; apply (Permutation_in _ Pm); apply in_or_app; right; assumption).
    rewrite (positions_get (f_vars cfg) _ (proj1 Hnames) Hv) in H. cbn [ret_opt bind] in H. rewrite Hv in H. cbn [ret_opt bind] in H. cbv zeta in H.
    assert (K : forall g cmu m c, incl g (available vars p a) -> mu_ok y cmu -> Forall (fun x => x <= 1) cmu -> (~ In a (map fst p) -> marked a m) -> vgrow_at cfg psort X y cats fuel p (b_mu node) vign1 a v g cmu m = Ok c -> vside p (b_mu node) a v g cmu c).
    { clear - G1 Hv HC Hnames. intros g cmu m c Hg Hc Hc1 Hm H. unfold vgrow_at in H. rewrite (@set_indices cfg Hnames p a v g Hv Hg) in H. cbn [bind] in H.
      rewrite (@fd_get cfg Hnames p a v Hv) in H. cbn [ret_opt bind] in H. cbv zeta in H. unfold vars in *. rewrite (@fd_child cfg Hnames p a v g Hv Hg) in H. destruct (qltb 0 (qsum cmu)) eqn:Q.
      - rewrite qltb_lt in Q. assert (P : bplen (p ++ [(a, g)]) = (bplen p + 1)%Z) by (unfold bplen; rewrite app_length; cbn [List.length]; lia).
        assert (H' : vfit_at cfg psort X y cats fuel (BTree true [] None (-1) (Some (a, g)) (Some v) cmu []) (inherit vign1 (fv_name v) m) (p ++ [(a, g)]) = Ok c) by (unfold vfit_at; rewrite P; exact H).
        destruct (@vfit_mu _ _ _ _ _ H') as (M1 & M2). split; [exact M1|]. split; [exact M2|]. left. exists (inherit vign1 (fv_name v) m). split; [exact Hc|]. split; [exact Q|]. split; [exact Hc1|]. split; [|exists fuel; exact H'].
        apply good_child; assumption.
      - destruct (get_class_value (b_mu node) y) as [cv|] eqn:GC; [|discriminate]. injection H as <-. split; [reflexivity|]. split; [reflexivity|]. right. split; [reflexivity|]. split; [|exists cv; split; [exact GC|reflexivity]].
        apply Qcle_antisym; [rewrite qltb_ge in Q; exact Q|]. apply qsum_nonneg. apply (proj2 Hc). }
    assert (MU : mu_ok y (v_lmu w) /\ mu_ok y (v_rmu w) /\ Forall (fun x => x <= 1) (v_lmu w) /\ Forall (fun x => x <= 1) (v_rmu w) /\ (~ In a (map fst p) -> marked a (v_lmarks w) /\ marked a (v_rmarks w))).
    { destruct (in_dec Nat.eq_dec a (map fst p)) as [IN|NI].
      - destruct (OF IN) as (A & M & -> & ->). assert (M' := @marked_mark a A g1 M (@avail_seq p a g1 I1)). splits; try (apply map2_qmin_le; assumption); try (apply map2_qmin_ok; [assumption|]; apply marked_max; assumption). contradiction.
      - destruct (NF NI) as (-> & -> & M1 & M2). splits; try (apply map2_qmin_le; assumption); try (apply map2_qmin_ok; [assumption|]; apply (@side_sum_ok cfg X y Hlen)). auto. }
    destruct MU as (U1 & U2 & U3 & U4 & U5).
    change (bind (vgrow_at cfg psort X y cats fuel p (b_mu node) vign1 a v g1 (v_lmu w) (v_lmarks w)) (fun l => bind (vgrow_at cfg psort X y cats fuel p (b_mu node) vign1 a v g2 (v_rmu w) (v_rmarks w)) (fun r => Ok (BTree false (b_children node ++ [l; r]) (b_class node) (bplen p) (b_value node) (b_var node) (b_mu node) []))) = Ok t) in H.
    destruct (vgrow_at cfg psort X y cats fuel p (b_mu node) vign1 a v g1 (v_lmu w) (v_lmarks w)) as [cl|] eqn:EL; [|discriminate]. cbn [bind] in H.
    destruct (vgrow_at cfg psort X y cats fuel p (b_mu node) vign1 a v g2 (v_rmu w) (v_rmarks w)) as [cr|] eqn:ER; [|discriminate]. cbn [bind] in H.
    rewrite HCh in H. cbn [app] in H. injection H as <-. split; [reflexivity|]. split; [reflexivity|]. exists a, v, g1, g2, cl, cr, (v_lmu w), (v_rmu w). split; [assumption|]. split; [reflexivity|].
    split; [exact (K g1 _ _ _ I1 U1 U3 (fun NI => proj1 (U5 NI)) EL)|]. split; [exact (K g2 _ _ _ I2 U2 U4 (fun NI => proj2 (U5 NI)) ER)|].
    split; [split; [|exact OF]; intro NI; destruct (NF NI) as (Q1 & Q2 & _); auto|]. auto.
  Qed.
  Lemma vnodes t q m : bnode_at t q m -> forall p node vign, vfitted p node vign t -> b_children node = [] -> b_leaf m = false ->
    Forall (fun x => x <= 1) (b_mu m) /\ List.length (b_mu m) = n /\
    exists a v g1 g2 c1 c2, split_ok cfg (p ++ q) a v g1 g2 /\ b_children m = [c1; c2] /\ b_value c1 = Some (a, g1) /\ b_value c2 = Some (a, g2) /\ shares (p ++ q) (b_mu m) a g1 g2 (b_mu c1) (b_mu c2) /\
      exists ps, binary_partitions psort cats (fd_of cfg (p ++ q)) XM y = Ok ps /\ In (fv_name v, map (set_name v) g1, map (set_name v) g2) ps /\
        scored (p ++ q) (b_mu m) ps (bgain y (b_mu m) (b_mu c1) (b_mu c2)) /\ (0 < bgain y (b_mu m) (b_mu c1) (b_mu c2))%R /\
        stop_met cfg (bgain y (b_mu m) (b_mu c1) (b_mu c2)) (masked (b_mu m) y) (bplen (p ++ q)) = false.
  Proof.
    intro N. induction N as [t|t c l q m Lf Ic Vc N IH]; intros p node vign F HCh Lm.
    - destruct (vfitted_cases F HCh) as (Mu & ps & g & EP & GE & SC & [(K & _)|(_ & ST & a & v & g1 & g2 & c1 & c2 & lmu & rmu & SO & Ch & (M1 & V1 & _) & (M2 & V2 & _) & SH & GP & GB & PI)]); [congruence|].
      rewrite Mu. split; [exact (proj1 (proj2 (proj2 F)))|]. split; [exact (proj1 (proj1 F))|]. exists a, v, g1, g2, c1, c2. rewrite app_nil_r, M1, M2. splits; try assumption. exists ps. rewrite <- GB. auto.
    - destruct (vfitted_cases F HCh) as (Mu & ps & g & EP & GE & SC & [(K & _)|(_ & ST & a & v & g1 & g2 & c1 & c2 & lmu & rmu & SO & Ch & (M1 & V1 & K1) & (M2 & V2 & K2) & SH & _)]); [congruence|].
      assert (LF : b_leaf c = true -> False) by (intro Q; destruct N; congruence).
      replace (p ++ l :: q) with ((p ++ [l]) ++ q) by (rewrite <- app_assoc; reflexivity).
      rewrite Ch in Ic. destruct Ic as [<-|[<-|[]]].
      + rewrite V1 in Vc. injection Vc as <-. destruct K1 as [(vg & F1)|(K1 & _)]; [|destruct (LF K1)]. exact (IH _ _ _ F1 eq_refl Lm).
      + rewrite V2 in Vc. injection Vc as <-. destruct K2 as [(vg & F2)|(K2 & _)]; [|destruct (LF K2)]. exact (IH _ _ _ F2 eq_refl Lm).
  Qed.
  Lemma vleaves t q m : bnode_at t q m -> forall p node vign, vfitted p node vign t -> b_children node = [] -> b_leaf m = true ->
    (0 < qsum (b_mu m) /\ mu_ok y (b_mu m) /\ (exists cv, get_class_value (b_mu m) y = Ok cv /\ b_class m = Some cv) /\
      exists ps g, binary_partitions psort cats (fd_of cfg (p ++ q)) XM y = Ok ps /\ (0 <= g)%R /\ scored (p ++ q) (b_mu m) ps g /\ stop_met cfg g (masked (b_mu m) y) (bplen (p ++ q)) = true) \/
    (qsum (b_mu m) = 0 /\ exists q' l par cv, q = q' ++ [l] /\ bnode_at t q' par /\ b_leaf par = false /\ In m (b_children par) /\ b_value m = Some l /\ get_class_value (b_mu par) y = Ok cv /\ b_class m = Some cv).
  Proof.
    intro N. induction N as [t|t c l q m Lf Ic Vc N IH]; intros p node vign F HCh Lm.
    - left. destruct (vfitted_cases F HCh) as (Mu & ps & g & EP & GE & SC & [(_ & CV & ST)|(K & _)]); [|congruence]. rewrite Mu, app_nil_r. splits; [exact (proj1 (proj2 F))|exact (proj1 F)|exact CV|]. exists ps, g. auto.
    - destruct (vfitted_cases F HCh) as (Mu & ps & g & EP & GE & SC & [(K & _)|(_ & ST & a & v & g1 & g2 & c1 & c2 & lmu & rmu & SO & Ch & S1 & S2 & SH & _)]); [congruence|].
      replace (p ++ l :: q) with ((p ++ [l]) ++ q) by (rewrite <- app_assoc; reflexivity).
      assert (ST' : forall g cmu, vside p (b_mu node) a v g cmu c -> (exists vg nd, vfitted (p ++ [l]) nd vg c /\ b_children nd = []) \/ (b_leaf c = true /\ qsum (b_mu c) = 0 /\ exists cv, get_class_value (b_mu t) y = Ok cv /\ b_class c = Some cv)).
      { clear - Vc Mu. intros g cmu (M1 & V1 & K1). rewrite V1 in Vc. injection Vc as <-. rewrite M1, Mu. destruct K1 as [(vg & F1)|K1]; [left; eexists; eexists; split; [exact F1|reflexivity]|right; exact K1]. }
      assert (D : (exists vg nd, vfitted (p ++ [l]) nd vg c /\ b_children nd = []) \/ (b_leaf c = true /\ qsum (b_mu c) = 0 /\ exists cv, get_class_value (b_mu t) y = Ok cv /\ b_class c = Some cv)).
      { assert (Ic' := Ic). rewrite Ch in Ic'. destruct Ic' as [Q|[Q|[]]]; subst c; [exact (ST' _ _ S1)|exact (ST' _ _ S2)]. }
      destruct D as [(vg & nd & F1 & CN)|(L1 & Z1 & cv & G1 & C1)].
      + destruct (IH _ _ _ F1 CN Lm) as [D|(Z & q' & l' & par & cv & -> & NP & LP & IP & VP & GP & CP)]; [left; exact D|right]. split; [assumption|]. exists (l :: q'), l', par, cv. splits; try assumption; [reflexivity|]. eapply bat_child; eassumption.
      + right. inversion N; subst; [|congruence]. split; [assumption|]. exists [], l, t, cv. splits; try assumption; [reflexivity|constructor].
  Qed.
End Shares.
(** ** from private copies back to the shared arrays *)
Lemma erase_leaf t : b_leaf (erase t) = b_leaf t.
Proof. destruct t. reflexivity. Qed.
Lemma erase_node t q m : bnode_at t q m -> bnode_at (erase t) q (erase m).
Proof.
  intro N. induction N as [t|t c l q m Lf Ic Vc N IH]; [constructor|]. apply bat_child with (c := erase c); [rewrite erase_leaf; assumption| | |assumption].
  - destruct (erase_fields t) as (_ & -> & _). apply in_map. assumption.
  - destruct (erase_fields c) as (_ & _ & _ & -> & _). assumption.
Qed.
Lemma fit_private cfg psort X y : (forall l, Permutation (psort l) l) -> distinct_names (f_vars cfg) ->
  match vt_fit cfg psort X y with
  | Err e => bt_fit cfg psort fresh_broot X y = Err e
  | Ok t' => exists h t, bt_fit cfg psort fresh_broot X y = Ok (h, t) /\ erase t = t'
  end.
Proof.
  intros Hp Hn. unfold vt_fit, bt_fit. destruct (categorical_features (f_vars cfg)) as [cats|e] eqn:C; cbn [bind]; [|reflexivity].
  destruct (Nat.eqb_spec (List.length X) (List.length y)) as [L|L]; cbn [negb orb]; [|reflexivity]. destruct (Nat.eqb_spec (List.length y) 0) as [L0|L0]; [reflexivity|].
  destruct (dataset_membership X (f_vars cfg)) as [XM|] eqn:E; cbn [bind]; [|reflexivity].
  destruct (@dataset_membership_exact (f_vars cfg) X XM Hn E) as [-> R]. destruct (@categorical_spec _ _ (proj1 Hn) C) as [Hs Hc]. assert (Hy : y <> []) by (intros ->; apply L0; reflexivity).
  rewrite (@fd_initial cfg Hn). cbn [b_leaf b_children b_class b_level b_value b_var b_ignored fresh_broot].
  assert (RP : rep [] (b_ignored (broot y)) []) by (split; [intro f; exact I|intros f g a Q; discriminate Q]).
  assert (V := @vfit_agrees cfg psort X y cats Hp Hn L Hy Hc (fuel_for (fd_of cfg [])) [] (broot y) [] [] (@broot_inv X y L Hy) RP). unfold vfit_at, bfit_at in V. cbn [erase broot map] in V. change (bplen []) with 0%Z in V.
  match goal with |- match ?t2 with Ok _ => _ | Err _ => _ end => match type of V with match ?t1 with Ok _ => _ | Err _ => _ end => change t2 with t1; destruct t1 as [t'|e] end end; [|exact V].
  destruct V as (h' & t & Q & ET & _). exists h', t. split; [exact Q|exact ET].
Qed.
Lemma trained_vfitted cfg psort X y t : btrained cfg psort X y t -> exists cats, bcontext cfg psort X y cats /\ vfitted cfg psort X y cats [] (broot y) [] (erase t).
Proof.
  intros T. destruct (btrained_fitted T) as (cats & HC & RD & NS & _). assert (HC' := HC). destruct HC' as (Hp & Hn & L & Hy & Hc). destruct T as (_ & _ & h & T).
  assert (FP := @fit_private cfg psort X y Hp Hn). destruct (vt_fit cfg psort X y) as [t'|e] eqn:V; [|congruence]. destruct FP as (h' & t0 & T' & ET). assert (t0 = t) by congruence. subst t0 t'. clear T T' h h'.
  unfold vt_fit in V. destruct (categorical_features (f_vars cfg)) as [cats0|] eqn:C; [|discriminate]. cbn [bind] in V. rewrite L, Nat.eqb_refl in V. cbn [negb orb] in V. destruct (Nat.eqb_spec (List.length y) 0) as [L0|L0]; [discriminate|].
  destruct (dataset_membership X (f_vars cfg)) as [XM|] eqn:E; [|discriminate]. cbn [bind] in V. destruct (@dataset_membership_exact (f_vars cfg) X XM Hn E) as [-> R]. destruct (@categorical_spec _ _ (proj1 Hn) C) as [Hs Hc0].
  rewrite (@fd_initial cfg Hn) in V. exists cats0. split; [exact (conj Hp (conj Hn (conj L (conj Hy Hc0))))|].
  assert (G0 : good cfg X y [] []).
  { split; [|intros a v A _ Q; discriminate Q]. intros a v _. cbn [map In dget]. split; [contradiction|congruence]. }
  destruct (@broot_inv X y L Hy) as (_ & _ & M1 & M2). split; [exact M1|]. split; [exact M2|]. split; [|split; [exact G0|]].
  - apply Forall_forall. intros x Hx. apply repeat_spec in Hx. subst x. apply Qcle_refl.
  - exists (fuel_for (fd_of cfg [])). unfold vfit_at. exact V.
Qed.
Lemma trained_shares cfg psort X y t p m : btrained cfg psort X y t -> bnode_at t p m -> b_leaf m = false ->
  List.length X = List.length y /\ Forall (fun x => x <= 1) (b_mu m) /\ List.length (b_mu m) = List.length y /\
  exists a v g1 g2 c1 c2, split_ok cfg p a v g1 g2 /\ b_children m = [c1; c2] /\ b_value c1 = Some (a, g1) /\ b_value c2 = Some (a, g2) /\ shares cfg X y p (b_mu m) a g1 g2 (b_mu c1) (b_mu c2).
Proof.
  intros T N Lm. destruct (trained_vfitted T) as (cats & HC & F). assert (HC' := HC). destruct HC' as (Hp & Hn & L & Hy & Hc). split; [assumption|].
  assert (Lm' : b_leaf (erase m) = false) by (rewrite erase_leaf; assumption).
  destruct (@vnodes cfg psort X y cats HC (erase t) p (erase m) (erase_node N) [] (broot y) [] F eq_refl Lm') as (A & B & a & v & g1 & g2 & c1 & c2 & SO & Ch & V1 & V2 & SH & _). cbn [app] in *.
  destruct (erase_fields m) as (EM & EC & _). rewrite EM in A, B, SH. rewrite EC in Ch. split; [assumption|]. split; [assumption|].
  destruct (b_children m) as [|d1 [|d2 [|d3 ds]]]; try discriminate. cbn [map] in Ch. injection Ch as <- <-. exists a, v, g1, g2, d1, d2.
  destruct (erase_fields d1) as (M1 & _ & _ & W1 & _). destruct (erase_fields d2) as (M2 & _ & _ & W2 & _). rewrite M1, M2 in SH. rewrite W1 in V1. rewrite W2 in V2. auto.
Qed.
