(** * Trained binary fuzzy trees: structure, prediction, rules *)
From Verif Require Import Prelude M_Fuzzy M_Discretize M_Rule M_FDT M_FBDT S_Rule S_FDT S_FBDT P_FuzzySet P_FuzzyVar P_Entropy P_Rule P_FDT P_FDT2 P_FDT3 P_FBDT.
From Coq Require Import Reals Lra.
Set Implicit Arguments.
Open Scope Qc_scope.

Lemma btree_ind' (P : btree -> Prop) :
  (forall l cs cv lv va vr mu ig, Forall P cs -> P (BTree l cs cv lv va vr mu ig)) -> forall t, P t.
Proof.
  intro H. fix IH 1. intros [l cs cv lv va vr mu ig]. apply H. induction cs as [|c cs IHcs]; constructor; [apply IH|exact IHcs].
Qed.

(** ** distributions *)
Lemma class_card_total mu y : List.length mu = List.length y -> qsum (map (fun c => class_card mu y c) (zunique y)) = qsum mu.
Proof. intro L. apply class_card_sum. assumption. Qed.
Lemma dist_ok y mu : List.length mu = List.length y -> Forall (fun x => 0 <= x) mu -> 0 < qsum mu -> cv_ok (zunique y) (dist_of y mu).
Proof.
  intros L F P. assert (P' : qsum mu <> 0) by (intro E; rewrite E in P; qlra). split; [|split].
  - unfold dist_of. rewrite map_map. cbn [fst]. apply map_id.
  - intros c w H. unfold dist_of in H. apply in_map_iff in H. destruct H as [k [E _]]. injection E as <- <-.
    apply Qcdiv_01; [apply class_card_nonneg; assumption|apply class_card_le; assumption|assumption].
  - unfold dist_of. rewrite map_map. cbn [snd].
    assert (E : map (fun c => class_card mu y c / qsum mu) (zunique y) = map (fun c => (/ qsum mu) * class_card mu y c) (zunique y)).
    { apply map_ext. intro c. unfold Qcdiv. ring. }
    rewrite E, qsum_map_mult, class_card_total by assumption. field. assumption.
Qed.
Lemma cv_distribution y d : cv_ok (zunique y) d -> distribution y d.
Proof.
  intros (A & B & C). split; [rewrite A; apply zunique_NoDup|]. split; [|split; assumption]. intro c. rewrite A. apply zunique_In.
Qed.

(** ** from a call of fit to the invariant *)
Lemma categorical_spec vars cats : NoDup (map fv_name vars) -> categorical_features vars = Ok cats ->
  (forall v, In v vars -> fv_sets v <> []) /\ forall v, In v vars -> (In (fv_name v) cats <-> ~ continuous v).
Proof.
  intros N E. unfold categorical_features in E. destruct (mapM _ vars) as [l|] eqn:M; cbn [bind] in E; [|discriminate]. injection E as <-.
  apply mapM_ok in M.
  assert (G : (forall v, In v vars -> fv_sets v <> []) /\ forall k, In k (List.concat l) <-> exists v, In v vars /\ fv_name v = k /\ ~ continuous v).
  { clear N. induction M as [|v r vars l H M [IH1 IH2]]; [split; [intros ? []|intro k; split; [intros []|intros (v & [] & _)]]|].
    assert (C : fv_sets v <> [] /\ forall k, In k r <-> fv_name v = k /\ ~ continuous v).
    { unfold continuous. destruct (fv_sets v) as [|[c|m x] s]; [discriminate| |]; injection H as <-; (split; [discriminate|]); intro k; cbn.
      - split; [intros []|intros [_ F]]. exfalso. apply F. eauto.
      - split; [intros [<-|[]]; split; [reflexivity|]; intros (c & s' & F); discriminate|intros [<- _]; left; reflexivity]. }
    destruct C as [C1 C2]. split.
    - intros w [<-|Hw]; auto.
    - intro k. cbn [List.concat]. rewrite in_app_iff, C2, IH2. split.
      + intros [[A B]|(w & A & B & D)]; [exists v; split; [left; reflexivity|auto]|exists w; split; [right; assumption|auto]].
      + intros (w & [<-|A] & B & D); [left; auto|right; exists w; auto]. }
  destruct G as [G1 G2]. split; [assumption|]. intros v Hv. rewrite G2. split.
  - intros (w & Hw & Ew & Cw). assert (w = v); [|subst; assumption].
    apply In_nth_error in Hw. apply In_nth_error in Hv. destruct Hw as [i Hi], Hv as [j Hj].
    assert (i = j).
    { apply (proj1 (NoDup_nth_error _) N); [rewrite map_length; apply nth_error_Some; congruence|]. rewrite !nth_error_map, Hi, Hj. cbn. congruence. }
    subst. congruence.
  - intro C. exists v. auto.
Qed.
Lemma bt_fit_eq cfg psort X y : distinct_names (f_vars cfg) -> List.length X = List.length y -> y <> [] ->
  (forall v, In v (f_vars cfg) -> fv_sets v <> []) -> readable (f_vars cfg) X -> wide (f_vars cfg) X ->
  exists cats, categorical_features (f_vars cfg) = Ok cats /\ (forall v, In v (f_vars cfg) -> (In (fv_name v) cats <-> ~ continuous v)) /\
    bt_fit cfg psort fresh_broot X y = bfit_at cfg psort X y cats (S (measure cfg [])) [] (broot y) [].
Proof.
  intros Hn HL Hy Hs HR HW.
  assert (C : exists cats, categorical_features (f_vars cfg) = Ok cats).
  { unfold categorical_features. clear - Hs.
    assert (M : exists l, mapM (fun v => match fv_sets v with [] => Err IndexError | FC _ :: _ => Ok [] | FD _ _ :: _ => Ok [fv_name v] end) (f_vars cfg) = Ok l).
    { apply mapM_total. intros v Hv. specialize (Hs v Hv). destruct (fv_sets v) as [|[c|m x] s]; [congruence| |]; eauto. }
    destruct M as [l ->]. cbn. eauto. }
  destruct C as [cats C]. exists cats. split; [assumption|]. destruct (@categorical_spec _ _ (proj1 Hn) C) as [_ Hc]. split; [assumption|].
  unfold bt_fit. rewrite C. cbn [bind]. rewrite HL, Nat.eqb_refl. cbn [negb orb]. destruct (Nat.eqb_spec (List.length y) 0) as [E|_]; [destruct y; [congruence|discriminate]|].
  destruct (@membership_total (f_vars cfg) X HR HW) as [XM EM]. rewrite EM. cbn [bind].
  destruct (@dataset_membership_exact (f_vars cfg) X XM Hn EM) as [-> _].
  rewrite (@fd_initial cfg Hn). unfold bfit_at, fuel_for, measure, broot. cbn [b_leaf b_children b_class b_level b_value b_var b_ignored fresh_broot].
  reflexivity.
Qed.
Definition bcontext (cfg : fdt_cfg) (psort : list (string * option Qc) -> list (string * option Qc)) (X : list (list cell)) (y : list Z) (cats : list string) : Prop :=
  (forall l, Permutation (psort l) l) /\ distinct_names (f_vars cfg) /\ List.length X = List.length y /\ y <> [] /\
  (forall v, In v (f_vars cfg) -> (In (fv_name v) cats <-> ~ continuous v)).
Lemma btrained_fitted cfg psort X y t : btrained cfg psort X y t -> exists cats, bcontext cfg psort X y cats /\
  readable (f_vars cfg) X /\ (forall v, In v (f_vars cfg) -> fv_sets v <> []) /\ bfitted cfg psort X y cats [] (broot y) t.
Proof.
  intros (Hp & Hn & h & H). unfold bt_fit in H. destruct (categorical_features (f_vars cfg)) as [cats|] eqn:C; cbn [bind] in H; [|discriminate].
  destruct (Nat.eqb_spec (List.length X) (List.length y)) as [L|L]; cbn [negb orb] in H; [|discriminate].
  destruct (Nat.eqb_spec (List.length y) 0) as [L0|L0]; [discriminate|].
  destruct (dataset_membership X (f_vars cfg)) as [XM|] eqn:E; cbn [bind] in H; [|discriminate].
  destruct (@dataset_membership_exact (f_vars cfg) X XM Hn E) as [-> R]. destruct (@categorical_spec _ _ (proj1 Hn) C) as [Hs Hc].
  exists cats. assert (Hy : y <> []) by (intros ->; apply L0; reflexivity). split; [exact (conj Hp (conj Hn (conj L (conj Hy Hc))))|].
  split; [intros row Hr a v s Hv Hs'; eapply R; eassumption|]. split; [assumption|].
  rewrite (@fd_initial cfg Hn) in H. exists [], h, (S (measure cfg [])). split; [exact (@broot_inv X y L Hy)|exact H].
Qed.

(** ** paths *)
Section Paths.
  Variable cfg : fdt_cfg.
  Let vars := f_vars cfg.
  Inductive path_ok : list glit -> Prop :=
  | path_nil : path_ok []
  | path_left q a v g g' : path_ok q -> split_ok cfg q a v g g' -> path_ok (q ++ [(a, g)])
  | path_right q a v g g' : path_ok q -> split_ok cfg q a v g' g -> path_ok (q ++ [(a, g)]).
  Lemma path_snoc p a g : path_ok (p ++ [(a, g)]) -> path_ok p /\ exists v, nth_error vars a = Some v /\ g <> [] /\
    exists g', g' <> [] /\ Permutation (g ++ g') (available vars p a) /\ (continuous v -> g ++ g' = available vars p a \/ g' ++ g = available vars p a).
  Proof.
    intro H. inversion H as [E|q b v g0 g' Hq S E|q b v g0 g' Hq S E].
    - destruct p; discriminate.
    - apply app_inj_tail in E. destruct E as [-> E]. injection E as -> ->. split; [assumption|]. destruct S as (A & B & C & D & F). exists v. split; [exact A|]. split; [assumption|].
      exists g'. split; [assumption|]. split; [exact D|]. intro K. left. exact (F K).
    - apply app_inj_tail in E. destruct E as [-> E]. injection E as -> ->. split; [assumption|]. destruct S as (A & B & C & D & F). exists v. split; [exact A|]. split; [assumption|].
      exists g'. split; [assumption|]. split; [exact (Permutation_trans (Permutation_app_comm g g') D)|]. intro K. right. exact (F K).
  Qed.
  Lemma path_prefix p q : path_ok (p ++ q) -> path_ok p.
  Proof.
    revert p. induction q as [|l q IH] using rev_ind; intros p H; [rewrite app_nil_r in H; assumption|].
    rewrite app_assoc in H. destruct l as [a g]. apply IH. exact (proj1 (@path_snoc _ _ _ H)).
  Qed.
  Lemma path_strict p a g q g' r : path_ok (p ++ (a, g) :: q ++ (a, g') :: r) -> incl g' g /\ (List.length g' < List.length g)%nat.
  Proof.
    intro H. replace (p ++ (a, g) :: q ++ (a, g') :: r) with (((p ++ (a, g) :: q) ++ [(a, g')]) ++ r) in H by (rewrite <- !app_assoc; reflexivity).
    apply path_prefix in H. destruct (@path_snoc _ _ _ H) as (H0 & v & Hv & N & g2 & N2 & Pm & _).
    assert (I : incl (available vars (p ++ (a, g) :: q) a) g).
    { intros x Hx. apply filter_In in Hx. destruct Hx as [_ Hx]. rewrite forallb_forall in Hx. assert (Ig : In (a, g) (p ++ (a, g) :: q)) by (apply in_or_app; right; left; reflexivity). specialize (Hx (a, g) Ig).
      cbn [fst snd] in Hx. rewrite Nat.eqb_refl in Hx. cbn [negb orb] in Hx. apply memb_In in Hx. assumption. }
    assert (I' : incl g' (available vars (p ++ (a, g) :: q) a)) by (intros x Hx; apply (Permutation_in _ Pm); apply in_or_app; left; assumption).
    split; [intros x Hx; apply I, I', Hx|].
    assert (L1 := NoDup_incl_length (available_NoDup vars (p ++ (a, g) :: q) a) I).
    assert (L2 := Permutation_length Pm). rewrite app_length in L2. unfold vars in *. destruct g2; [congruence|cbn in L2; lia].
  Qed.
  Lemma path_valid p : path_ok p -> forall a g, In (a, g) p -> exists v, nth_error vars a = Some v /\ NoDup g /\ g <> [] /\ forall i, In i g -> exists s, nth_error (fv_sets v) i = Some s.
  Proof.
    induction p as [|[b k] p IH] using rev_ind; intros H a g I; [destruct I|]. destruct (@path_snoc _ _ _ H) as (H0 & v & Hv & N & g2 & N2 & Pm & _).
    apply in_app_or in I. destruct I as [I|[I|[]]]; [auto|]. injection I as -> ->. exists v. split; [assumption|].
    assert (ND := Permutation_NoDup (Permutation_sym Pm) (available_NoDup vars p a)).
    assert (Ng : NoDup g) by (clear - ND; induction g as [|x g IH]; [constructor|]; inversion ND as [|? ? A B]; subst; constructor; [intro; apply A; apply in_or_app; left; assumption|apply IH; assumption]).
    split; [assumption|]. split; [assumption|]. intros i Hi. apply (@available_valid vars p a i v Hv). apply (Permutation_in _ Pm). apply in_or_app. left. assumption.
  Qed.
  Lemma seq_app_inv k m g1 g2 : g1 ++ g2 = seq k m -> g1 = seq k (List.length g1) /\ g2 = seq (k + List.length g1) (List.length g2).
  Proof.
    clear. revert k m. induction g1 as [|x g1 IH]; intros k m E; cbn [app] in E.
    - split; [reflexivity|]. cbn [List.length]. rewrite Nat.add_0_r, E, seq_length. reflexivity.
    - destruct m as [|m]; [discriminate|]. cbn [seq] in E. injection E as -> E. destruct (IH _ _ E) as [A B]. cbn [List.length seq].
      rewrite Nat.add_succ_r. split; [rewrite <- A; reflexivity|exact B].
  Qed.
  Lemma filter_app_l (g1 g2 : list nat) : NoDup (g1 ++ g2) -> filter (fun i => memb i g1) (g1 ++ g2) = g1 /\ filter (fun i => memb i g2) (g1 ++ g2) = g2.
  Proof.
    clear. intro N.
    assert (D : forall x, In x g1 -> In x g2 -> False).
    { induction g1 as [|x g1 IH]; intros z H1 H2; [destruct H1|]. inversion N as [|? ? A B]; subst. destruct H1 as [->|H1]; [apply A; apply in_or_app; right; assumption|exact (IH B z H1 H2)]. }
    assert (K : forall l (f : nat -> bool), (forall x, In x l -> f x = false) -> filter f l = []).
    { clear. induction l as [|x l IH]; intros f H; [reflexivity|]. cbn. rewrite (H x (or_introl eq_refl)). apply IH. intros; apply H; right; assumption. }
    rewrite !filter_app. split.
    - rewrite filter_all by (intros x Hx; apply memb_In; assumption). rewrite K; [apply app_nil_r|]. intros x Hx. apply memb_not_In. intro; eapply D; eassumption.
    - rewrite K; [apply filter_all; intros x Hx; apply memb_In; assumption|]. intros x Hx. apply memb_not_In. intro; eapply D; eassumption.
  Qed.
  Lemma path_contiguous p a v : path_ok p -> nth_error vars a = Some v -> continuous v -> exists k m, available vars p a = seq k m.
  Proof.
    intros H Hv C. induction p as [|[b g] p IH] using rev_ind; [rewrite available_nil; eauto|].
    destruct (@path_snoc _ _ _ H) as (H0 & w & Hw & N & g2 & N2 & Pm & F). destruct (IH H0) as (k & m & E).
    rewrite available_snoc. destruct (Nat.eqb_spec b a) as [->|]; [|eauto].
    rewrite Hw in Hv. injection Hv as ->. assert (NA := available_NoDup vars p a). destruct (F C) as [Q|Q]; rewrite <- Q in NA |- *.
    - rewrite (proj1 (@filter_app_l _ _ NA)). rewrite E in Q. destruct (@seq_app_inv _ _ _ _ Q) as [-> _]. eauto.
    - rewrite (proj2 (@filter_app_l _ _ NA)). rewrite E in Q. destruct (@seq_app_inv _ _ _ _ Q) as [_ ->]. eauto.
  Qed.
End Paths.

(** ** nodes *)
Section Nodes.
  Variable cfg : fdt_cfg.
  Variable psort : list (string * option Qc) -> list (string * option Qc).
  Variable X : list (list cell).
  Variable y : list Z.
  Variable cats : list string.
  Hypothesis HC : bcontext cfg psort X y cats.
  Let vars := f_vars cfg.
  Let Hsort := proj1 HC.
  Let Hnames := proj1 (proj2 HC).
  Let Hlen := proj1 (proj2 (proj2 HC)).
  Let Hy := proj1 (proj2 (proj2 (proj2 HC))).
  Let Hcats := proj2 (proj2 (proj2 (proj2 HC))).
  Let cases := @bfitted_cases cfg psort X y cats Hsort Hnames Hlen Hy Hcats.
  Lemma bfitted_value p node t : bfitted cfg psort X y cats p node t -> b_value t = b_value node /\ b_var t = b_var node.
  Proof. intro F. destruct (cases F) as (_ & _ & [->|(a & v & g1 & g2 & c1 & c2 & _ & _ & _ & _ & ->)]); split; reflexivity. Qed.
  Definition good_node (p : list glit) (m : btree) : Prop :=
    (exists node, bfitted cfg psort X y cats p node m /\ b_children node = []) \/
    (exists mu l v cmu cign, m = zero_child y mu l v cmu cign /\ mu_ok y mu /\ 0 < qsum mu).
  Lemma bnodes t p m : bnode_at t p m -> forall q node, path_ok cfg q -> bfitted cfg psort X y cats q node t -> b_children node = [] ->
    path_ok cfg (q ++ p) /\ good_node (q ++ p) m /\ (Z.of_nat (List.length q) <= Z.max 0 (f_max_depth cfg) -> Z.of_nat (List.length (q ++ p)) <= Z.max 0 (f_max_depth cfg))%Z.
  Proof.
    intro H. induction H as [t|t c l p m L C V H IH]; intros q node Hq F Hc.
    - rewrite app_nil_r. split; [assumption|]. split; [left; eauto|auto].
    - destruct (cases F) as (MU & MP & [->|(a & v & g1 & g2 & c1 & c2 & SO & MD & S1 & S2 & ->)]); [discriminate|].
      cbn [bsplit_result b_children] in C. rewrite Hc in C. cbn [app In] in C.
      assert (K : forall g g', side cfg psort X y cats q (b_mu node) (a, g) v c -> path_ok cfg (q ++ [(a, g)]) -> split_ok cfg q a v g g' \/ split_ok cfg q a v g' g ->
        path_ok cfg (q ++ l :: p) /\ good_node (q ++ l :: p) m /\ (Z.of_nat (List.length q) <= Z.max 0 (f_max_depth cfg) -> Z.of_nat (List.length (q ++ l :: p)) <= Z.max 0 (f_max_depth cfg))%Z).
      { intros g g' (cmu & cign & MC & [[P F']|[P ->]]) PO _.
        - destruct (bfitted_value F') as [V' _]. rewrite V in V'. cbn in V'. injection V' as ->.
          destruct (IH _ _ PO F' eq_refl) as (I1 & I2 & I3). replace (q ++ (a, g) :: p) with ((q ++ [(a, g)]) ++ p) by (rewrite <- app_assoc; reflexivity).
          split; [assumption|]. split; [assumption|]. intro B. apply I3. rewrite app_length. cbn [List.length]. unfold bplen in MD. lia.
        - cbn in V. injection V as <-. inversion H as [|? ? ? ? ? L']; subst; [|discriminate].
          split; [assumption|]. split; [right; do 5 eexists; split; [reflexivity|split; assumption]|]. intro B. rewrite app_length. cbn [List.length]. unfold bplen in MD. lia. }
      destruct C as [<-|[<-|[]]].
      + apply (K g1 g2 S1); [eapply path_left; eassumption|left; assumption].
      + apply (K g2 g1 S2); [eapply path_right; eassumption|right; assumption].
  Qed.
  Lemma zero_leafP mu l v cmu cign : b_leaf (zero_child y mu l v cmu cign) = true. Proof. reflexivity. Qed.
End Nodes.

(** ** well-formedness *)
Definition bown (t : btree) : list glit := match b_value t with Some l => [l] | None => [] end.
Definition bown_ok (vars : list fvar) (value : option glit) (var : option fvar) : Prop :=
  match value with
  | Some (a, g) => exists v, var = Some v /\ nth_error vars a = Some v /\ forall i, In i g -> exists s, nth_error (fv_sets v) i = Some s
  | None => True
  end.
Fixpoint bwf (vars : list fvar) (classes : list Z) (t : btree) : Prop :=
  let 'BTree leaf cs cv _ value var _ _ := t in
  bown_ok vars value var /\
  if leaf then exists d, cv = Some d /\ cv_ok classes d
  else cs <> [] /\ fold_right (fun c P => (b_value c <> None /\ bwf vars classes c) /\ P) True cs.
Lemma bwf_own vars classes t : bwf vars classes t -> bown_ok vars (b_value t) (b_var t).
Proof. destruct t. cbn. tauto. Qed.
Lemma bfitted_wf cfg psort X y cats : bcontext cfg psort X y cats ->
  forall m p node, path_ok cfg p -> bfitted cfg psort X y cats p node m -> b_children node = [] -> bown_ok (f_vars cfg) (b_value node) (b_var node) -> bwf (f_vars cfg) (zunique y) m.
Proof.
  intros HC. assert (HC' := HC). destruct HC' as (Hsort & Hnames & Hlen & Hy & Hcats).
  induction m as [lf cs cv lv va vr mu ig IH] using btree_ind'. intros p node PO F Hc O.
  destruct (@bfitted_cases cfg psort X y cats Hsort Hnames Hlen Hy Hcats _ _ _ F) as ([ML MN] & MP & [E|(a & v & g1 & g2 & c1 & c2 & SO & MD & S1 & S2 & E)]).
  - unfold bleaf_result in E. injection E as -> -> -> -> -> -> -> ->. cbn [bwf]. split; [assumption|]. eexists. split; [reflexivity|]. apply dist_ok; assumption.
  - unfold bsplit_result in E. rewrite Hc in E. cbn [app] in E. injection E as -> -> -> -> -> -> -> ->. cbn [bwf]. split; [assumption|]. split; [discriminate|].
    apply (@fold_and _ (fun c => b_value c <> None /\ bwf (f_vars cfg) (zunique y) c)).
    assert (PL : path_ok cfg (p ++ [(a, g1)])) by (eapply path_left; eassumption). assert (PR : path_ok cfg (p ++ [(a, g2)])) by (eapply path_right; eassumption).
    assert (K : forall g c, path_ok cfg (p ++ [(a, g)]) -> side cfg psort X y cats p (b_mu node) (a, g) v c ->
       (forall p node, path_ok cfg p -> bfitted cfg psort X y cats p node c -> b_children node = [] -> bown_ok (f_vars cfg) (b_value node) (b_var node) -> bwf (f_vars cfg) (zunique y) c) ->
       b_value c <> None /\ bwf (f_vars cfg) (zunique y) c).
    { intros g c PO' (cmu & cign & MC & [[P F']|[P ->]]) I.
      - split; [rewrite (proj1 (@bfitted_value _ _ _ _ _ HC _ _ _ F')); discriminate|]. apply (I _ _ PO' F' eq_refl). cbn [blank_child b_value b_var bown_ok].
        destruct (@path_valid cfg _ PO' a g) as (w & Hw & _ & _ & Hi); [apply in_or_app; right; left; reflexivity|].
        assert (w = v) by (destruct SO as (Hv & _); cbv zeta in Hv; congruence). subst w. exists v. auto.
      - split; [discriminate|]. cbn [zero_child bwf]. split.
        + destruct (@path_valid cfg _ PO' a g) as (w & Hw & _ & _ & Hi); [apply in_or_app; right; left; reflexivity|].
          assert (w = v) by (destruct SO as (Hv & _); cbv zeta in Hv; congruence). subst w. exists v. auto.
        + eexists. split; [reflexivity|]. apply dist_ok; assumption. }
    inversion IH as [|? ? I1 I2]; subst. inversion I2 as [|? ? I3 _]; subst.
    constructor; [apply (K g1); assumption|]. constructor; [apply (K g2); assumption|constructor].
Qed.
