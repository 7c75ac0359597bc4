(** * Proofs about comparisons *)
From Verif Require Import Prelude M_Fuzzy M_Discretize M_Rule M_FDT M_FBDT M_ID3 S_Rule S_FDT S_FBDT P_FuzzyVar P_FDT P_FDT2 P_FDT3 P_FBDT2 P_FBDT3 P_Counterfactual M_Equality.
Set Implicit Arguments.
Open Scope string_scope. Open Scope list_scope. Open Scope Qc_scope.

(** ** dictionaries *)
Lemma dict_eqb_spec d e : NoDup (dkeys d) -> NoDup (dkeys e) -> (dict_eqb d e = true <-> forall k, dget k d = dget k e).
Proof.
  intros ND NE. unfold dict_eqb. rewrite andb_true_iff, Nat.eqb_eq, forallb_forall. split.
  - intros (L & F). assert (S : forall k w, dget k d = Some w -> dget k e = Some w).
    { intros k w H. apply dget_In in H. specialize (F _ H). cbn [fst snd] in F. destruct (dget k e) as [w'|]; [|discriminate]. apply qeqb_eq in F. congruence. }
    assert (I : incl (dkeys e) (dkeys d)). { apply NoDup_length_incl; [exact ND|unfold dkeys; rewrite !map_length; lia|]. intros k K. destruct (dget_ex _ _ K) as (w & W). exact (dget_Some_key _ _ (S k w W)). }
    intro k. destruct (dget k d) as [w|] eqn:E; [symmetry; apply S; exact E|]. destruct (dget k e) as [w|] eqn:E'; [|reflexivity]. exfalso. apply dget_None in E. apply E, I. exact (dget_Some_key _ _ E').
  - intro H. split.
    + assert (P : forall a b : dict Z Qc, NoDup (dkeys a) -> (forall k, dget k a = dget k b) -> (List.length a <= List.length b)%nat).
      { intros a b N G. replace (List.length a) with (List.length (dkeys a)) by (unfold dkeys; apply map_length). replace (List.length b) with (List.length (dkeys b)) by (unfold dkeys; apply map_length). apply NoDup_incl_length; [exact N|]. intros k K. destruct (dget_ex _ _ K) as (w & W). rewrite G in W. exact (dget_Some_key _ _ W). }
      apply Nat.le_antisymm; apply P; auto.
    + intros (k & w) K. cbn [fst snd]. rewrite <- H, (dget_nodup _ _ _ ND K). apply qeqb_eq. reflexivity.
Qed.
Lemma sorted_same (l m : list Z) : StronglySorted Z.lt l -> StronglySorted Z.lt m -> (forall x, In x l <-> In x m) -> l = m.
Proof.
  revert m. induction l as [|a l IH]; intros m SL SM H.
  - destruct m as [|b m]; [reflexivity|]. exfalso. apply (H b). left. reflexivity.
  - destruct m as [|b m]; [exfalso; apply (H a); left; reflexivity|]. inversion SL as [|? ? SL' FL]; subst. inversion SM as [|? ? SM' FM]; subst. rewrite Forall_forall in FL, FM.
    assert (a = b). { assert (A : In a (b :: m)) by (apply H; left; reflexivity). assert (B : In b (a :: l)) by (apply H; left; reflexivity). destruct A as [->|A]; [reflexivity|]. destruct B as [->|B]; [reflexivity|]. specialize (FL _ B). specialize (FM _ A). lia. }
    subst b. f_equal. apply IH; try assumption. intro x. split; intro X.
    + assert (Y : In x (a :: m)) by (apply H; right; exact X). destruct Y as [<-|Y]; [exfalso; specialize (FL _ X); lia|exact Y].
    + assert (Y : In x (a :: l)) by (apply H; right; exact X). destruct Y as [<-|Y]; [exfalso; specialize (FM _ X); lia|exact Y].
Qed.
Lemma sorted_dicts (d e : dict Z Qc) : StronglySorted Z.lt (dkeys d) -> StronglySorted Z.lt (dkeys e) -> NoDup (dkeys d) -> NoDup (dkeys e) -> dict_eqb d e = true -> d = e.
Proof.
  intros SD SE ND NE H. rewrite dict_eqb_spec in H by assumption.
  assert (K : dkeys d = dkeys e). { apply sorted_same; try assumption. intro x. split; intro X; destruct (dget_ex _ _ X) as (w & W); [rewrite H in W|rewrite <- H in W]; exact (dget_Some_key _ _ W). }
  clear SD SE. revert e NE H K. induction d as [|[k v] d IH]; intros [|[k' v'] e] NE H K; try discriminate; [reflexivity|]. cbn in K. injection K as -> K. f_equal.
  - specialize (H k'). cbn in H. rewrite !eqb_refl in H. congruence.
  - inversion ND; subst. inversion NE; subst. apply IH; try assumption. intro x. specialize (H x). cbn in H. destruct (eqb x k') eqn:E; [|exact H]. apply eqb_eq in E. subst x. assert (dget k' d = None) by (apply dget_None; assumption). assert (dget k' e = None) by (apply dget_None; assumption). congruence.
Qed.

(** ** trees *)
Fixpoint eqb_lists {A} (f : A -> A -> bool) (a b : list A) : bool := match a, b with [], [] => true | x :: a', y :: b' => f x y && eqb_lists f a' b' | _, _ => false end.
Lemma eqb_lists_F2 A (f : A -> A -> bool) a b : eqb_lists f a b = true <-> Forall2 (fun x y => f x y = true) a b.
Proof.
  revert b. induction a as [|x a IH]; intros [|y b]; cbn; try (split; [discriminate|intro H; inversion H]); [split; [constructor|reflexivity]|].
  rewrite andb_true_iff, IH. split; [intros []; constructor; assumption|intro H; inversion H; tauto].
Qed.
Lemma tree_eqb_unfold l cs cv lv va vr mu l' cs' cv' lv' va' vr' mu' :
  tree_eqb (Tree l cs cv lv va vr mu) (Tree l' cs' cv' lv' va' vr' mu') = true <->
  l = l' /\ Forall2 (fun x y => tree_eqb x y = true) cs cs' /\ class_eqb cv cv' = true /\ lv = lv' /\ va = va' /\ mu = mu'.
Proof.
  cbn [tree_eqb]. assert (E : (fix go (a b : list tree) : bool := match a, b with [], [] => true | x :: a', y :: b' => tree_eqb x y && go a' b' | _, _ => false end) cs cs' = eqb_lists tree_eqb cs cs').
  { clear. revert cs'. induction cs as [|x a IH]; intros [|y b]; cbn; try reflexivity. rewrite IH. reflexivity. }
  rewrite E, !andb_true_iff, eqb_lists_F2, Bool.eqb_true_iff, Z.eqb_eq, !eqb_eq. tauto.
Qed.
Lemma btree_eqb_unfold l cs cv lv va vr mu ig l' cs' cv' lv' va' vr' mu' ig' :
  btree_eqb (BTree l cs cv lv va vr mu ig) (BTree l' cs' cv' lv' va' vr' mu' ig') = true <->
  l = l' /\ Forall2 (fun x y => btree_eqb x y = true) cs cs' /\ class_eqb cv cv' = true /\ lv = lv' /\ va = va' /\ mu = mu'.
Proof.
  cbn [btree_eqb]. assert (E : (fix go (a b : list btree) : bool := match a, b with [], [] => true | x :: a', y :: b' => btree_eqb x y && go a' b' | _, _ => false end) cs cs' = eqb_lists btree_eqb cs cs').
  { clear. revert cs'. induction cs as [|x a IH]; intros [|y b]; cbn; try reflexivity. rewrite IH. reflexivity. }
  rewrite E, !andb_true_iff, eqb_lists_F2, Bool.eqb_true_iff, Z.eqb_eq, !eqb_eq. tauto.
Qed.
Lemma itree_ind' (P : itree -> Prop) : (forall v l cs sp c cc lv e n, Forall P cs -> P (ITree v l cs sp c cc lv e n)) -> forall t, P t.
Proof. intro H. fix IH 1. intros [v l cs sp c cc lv e n]. apply H. induction cs as [|x cs IHcs]; constructor; [apply IH|exact IHcs]. Qed.
Lemma itree_eqb_eq t : forall u, itree_eqb_nodes t u = true <-> t = u.
Proof.
  induction t as [v l cs sp c cc lv e n IH] using itree_ind'. intros [v' l' cs' sp' c' cc' lv' e' n']. cbn [itree_eqb_nodes].
  assert (E : (fix go (a b : list itree) : bool := match a, b with [], [] => true | x :: a', y :: b' => itree_eqb_nodes x y && go a' b' | _, _ => false end) cs cs' = true <-> cs = cs').
  { revert cs'. induction IH as [|x a IHx IH IHa]; intros [|y b]; try (split; [reflexivity|reflexivity]); try (split; discriminate). rewrite andb_true_iff, IHx, IHa. split; [intros (-> & ->); reflexivity|intro H; injection H; auto]. }
  rewrite !andb_true_iff, E, !eqb_eq, Bool.eqb_true_iff, !Z.eqb_eq, qeqb_eq, Nat.eqb_eq. split; [intros ((((((((-> & ->) & ->) & ->) & ->) & ->) & ->) & ->) & ->); reflexivity|intro H; injection H; tauto].
Qed.

(** equivalence *)
Fixpoint distinct_classes (t : tree) : Prop :=
  let 'Tree _ cs cv _ _ _ _ := t in match cv with Some d => NoDup (dkeys d) | None => True end /\ fold_right (fun c P => distinct_classes c /\ P) True cs.
Lemma class_eqb_refl cv : match cv with Some d => NoDup (dkeys d) | None => True end -> class_eqb cv cv = true.
Proof. destruct cv as [d|]; [|reflexivity]. intro N. cbn. apply dict_eqb_spec; auto. Qed.
Lemma class_eqb_sym a b : match a with Some d => NoDup (dkeys d) | None => True end -> match b with Some d => NoDup (dkeys d) | None => True end -> class_eqb a b = true -> class_eqb b a = true.
Proof. destruct a as [d|], b as [e|]; cbn; try discriminate; try reflexivity. intros N M H. rewrite dict_eqb_spec in H |- * by assumption. intro k. symmetry. apply H. Qed.
Lemma class_eqb_trans a b c : match a with Some d => NoDup (dkeys d) | None => True end -> match b with Some d => NoDup (dkeys d) | None => True end -> match c with Some d => NoDup (dkeys d) | None => True end ->
  class_eqb a b = true -> class_eqb b c = true -> class_eqb a c = true.
Proof. destruct a as [d|], b as [e|], c as [f|]; cbn; try discriminate; try reflexivity. intros N M O H1 H2. rewrite dict_eqb_spec in H1, H2 |- * by assumption. intro k. rewrite H1. apply H2. Qed.
Lemma tree_eqb_refl t : distinct_classes t -> tree_eqb t t = true.
Proof.
  induction t as [l cs cv lv va vr mu IH] using tree_ind'. cbn [distinct_classes]. intros (N & F). rewrite fold_and in F. apply tree_eqb_unfold. splits; try reflexivity; [|apply class_eqb_refl; exact N].
  induction IH as [|x cs IHx IH IHcs]; constructor; inversion F; auto.
Qed.
Lemma tree_eqb_sym t : forall u, distinct_classes t -> distinct_classes u -> tree_eqb t u = true -> tree_eqb u t = true.
Proof.
  induction t as [l cs cv lv va vr mu IH] using tree_ind'. intros [l' cs' cv' lv' va' vr' mu']. cbn [distinct_classes]. intros (N & F) (N' & F') H. rewrite fold_and in F, F'. apply tree_eqb_unfold in H. destruct H as (-> & C & K & -> & -> & ->).
  apply tree_eqb_unfold. splits; try reflexivity; [|apply class_eqb_sym; assumption].
  revert IH F F'. induction C as [|x z a b E C IHC]; intros IH F F'; constructor; inversion IH; subst; inversion F; subst; inversion F'; subst; auto.
Qed.
Lemma tree_eqb_trans t : forall u w, distinct_classes t -> distinct_classes u -> distinct_classes w -> tree_eqb t u = true -> tree_eqb u w = true -> tree_eqb t w = true.
Proof.
  induction t as [l cs cv lv va vr mu IH] using tree_ind'. intros [l' cs' cv' lv' va' vr' mu'] [l2 cs2 cv2 lv2 va2 vr2 mu2]. cbn [distinct_classes]. intros (N & F) (N' & F') (N2 & F2) H H'. rewrite fold_and in F, F', F2. apply tree_eqb_unfold in H, H'. destruct H as (-> & C & K & -> & -> & ->). destruct H' as (-> & C' & K' & -> & -> & ->).
  apply tree_eqb_unfold. splits; try reflexivity; [|exact (class_eqb_trans _ _ _ N N' N2 K K')].
  revert cs2 C' F2 IH F F'. induction C as [|x z a b E C IHC]; intros cs2 C' F2 IH F F'; inversion C'; subst; constructor; inversion IH; subst; inversion F; subst; inversion F'; subst; inversion F2; subst; eauto.
Qed.

(** equal trees over the same variables *)
Lemma own_ok_same vars va vr vr' : own_ok vars va vr -> own_ok vars va vr' -> va <> None -> vr = vr'.
Proof. destruct va as [[a i]|]; [|congruence]. cbn. intros (v & s & -> & V & _) (v' & s' & -> & V' & _) _. congruence. Qed.
Lemma bown_ok_same vars va vr vr' : bown_ok vars va vr -> bown_ok vars va vr' -> va <> None -> vr = vr'.
Proof. destruct va as [[a i]|]; [|congruence]. cbn. intros (v & -> & V & _) (v' & -> & V' & _) _. congruence. Qed.
Lemma class_same c1 c2 cv cv' : StronglySorted Z.lt c1 -> StronglySorted Z.lt c2 -> NoDup c1 -> NoDup c2 ->
  (exists d, cv = Some d /\ cv_ok c1 d) -> (exists d, cv' = Some d /\ cv_ok c2 d) -> class_eqb cv cv' = true -> cv = cv'.
Proof. intros S1 S2 N1 N2 (d & -> & (K & _)) (e & -> & (K' & _)) H. cbn in H. f_equal. apply sorted_dicts; unfold dkeys; rewrite ?K, ?K'; assumption. Qed.
Section Same.
  Variables (vars : list fvar) (c1 c2 : list Z).
  Hypotheses (S1 : StronglySorted Z.lt c1) (S2 : StronglySorted Z.lt c2) (N1 : NoDup c1) (N2 : NoDup c2).
  Lemma predict_same tn X t : forall u mu, wf vars c1 t -> wf vars c2 u -> tree_eqb t u = true -> partial_predict tn X mu t = partial_predict tn X mu u.
  Proof.
    induction t as [l cs cv lv va vr mu0 IH] using tree_ind'. intros [l' cs' cv' lv' va' vr' mu'] mu W W' H. apply tree_eqb_unfold in H. destruct H as (<- & C & K & <- & <- & <-). cbn [wf] in W, W'. destruct W as (O & W). destruct W' as (O' & W'). cbn [partial_predict].
    assert (E : match va with Some (att, i) => do v <- ret_opt AttributeError vr; do s <- ret_opt IndexError (nth_error (fv_sets v) i); do col <- column X att; do d <- membership_col s col; Ok (map2 tn mu d) | None => Ok mu end =
                match va with Some (att, i) => do v <- ret_opt AttributeError vr'; do s <- ret_opt IndexError (nth_error (fv_sets v) i); do col <- column X att; do d <- membership_col s col; Ok (map2 tn mu d) | None => Ok mu end).
    { destruct va as [[a i]|]; [|reflexivity]. rewrite (@own_ok_same _ _ _ _ O O') by discriminate. reflexivity. }
    rewrite E. match goal with |- bind ?r _ = _ => destruct r as [mu1|]; [|reflexivity] end. cbn [bind]. destruct l; [rewrite (class_same S1 S2 N1 N2 W W' K); reflexivity|].
    destruct W as (_ & F). destruct W' as (_ & F'). rewrite (fold_and (fun c => t_value c <> None /\ wf vars c1 c)) in F. rewrite (fold_and (fun c => t_value c <> None /\ wf vars c2 c)) in F'. assert (M : mapM (partial_predict tn X mu1) cs = mapM (partial_predict tn X mu1) cs'); [|destruct C; [reflexivity|rewrite M; reflexivity]].
    revert IH F F'. clear - S1 S2 N1 N2 C. induction C as [|x z a b E C IHC]; intros IH F F'; [reflexivity|]. inversion IH; subst. inversion F; subst. inversion F'; subst. cbn [mapM]. rewrite (H1 z mu1) by tauto. rewrite IHC by assumption. reflexivity.
  Qed.
  Lemma rules_same th t : forall u prefix, wf vars c1 t -> wf vars c2 u -> tree_eqb t u = true -> get_rules t prefix th = get_rules u prefix th.
  Proof.
    induction t as [l cs cv lv va vr mu0 IH] using tree_ind'. intros [l' cs' cv' lv' va' vr' mu'] prefix W W' H. apply tree_eqb_unfold in H. destruct H as (<- & C & K & <- & <- & <-). cbn [wf] in W, W'. destruct W as (O & W). destruct W' as (O' & W'). cbn [get_rules].
    assert (E : match va with Some (_, i) => do v <- ret_opt AttributeError vr; do s <- ret_opt IndexError (nth_error (fv_sets v) i); Ok (prefix ++ [(fv_name v, fs_name s)]) | None => Ok prefix end =
                match va with Some (_, i) => do v <- ret_opt AttributeError vr'; do s <- ret_opt IndexError (nth_error (fv_sets v) i); Ok (prefix ++ [(fv_name v, fs_name s)]) | None => Ok prefix end).
    { destruct va as [[a i]|]; [|reflexivity]. rewrite (@own_ok_same _ _ _ _ O O') by discriminate. reflexivity. }
    rewrite E. match goal with |- bind ?r _ = _ => destruct r as [rule1|]; [|reflexivity] end. cbn [bind]. destruct l; [rewrite (class_same S1 S2 N1 N2 W W' K); reflexivity|].
    destruct W as (_ & F). destruct W' as (_ & F'). rewrite (fold_and (fun c => t_value c <> None /\ wf vars c1 c)) in F. rewrite (fold_and (fun c => t_value c <> None /\ wf vars c2 c)) in F'. assert (M : mapM (fun c => get_rules c rule1 th) cs = mapM (fun c => get_rules c rule1 th) cs'); [|rewrite M; reflexivity].
    revert IH F F'. clear - S1 S2 N1 N2 C. induction C as [|x z a b E C IHC]; intros IH F F'; [reflexivity|]. inversion IH; subst. inversion F; subst. inversion F'; subst. cbn [mapM]. rewrite (H1 z rule1) by tauto. rewrite IHC by assumption. reflexivity.
  Qed.
  Lemma bpredict_same tn X t : forall u mu, bwf vars c1 t -> bwf vars c2 u -> btree_eqb t u = true -> partial_bpredict tn X mu t = partial_bpredict tn X mu u.
  Proof.
    induction t as [l cs cv lv va vr mu0 ig IH] using btree_ind'. intros [l' cs' cv' lv' va' vr' mu' ig'] mu W W' H. apply btree_eqb_unfold in H. destruct H as (<- & C & K & <- & <- & <-). cbn [bwf] in W, W'. destruct W as (O & W). destruct W' as (O' & W'). cbn [partial_bpredict].
    match goal with |- bind ?r _ = bind ?r' _ => assert (E : r = r') end.
    { destruct va as [[a i]|]; [|reflexivity]. rewrite (@bown_ok_same _ _ _ _ O O') by discriminate. reflexivity. }
    rewrite E. match goal with |- bind ?r _ = _ => destruct r as [mu1|]; [|reflexivity] end. cbn [bind]. destruct l; [rewrite (class_same S1 S2 N1 N2 W W' K); reflexivity|].
    destruct W as (_ & F). destruct W' as (_ & F'). rewrite (fold_and (fun c => b_value c <> None /\ bwf vars c1 c)) in F. rewrite (fold_and (fun c => b_value c <> None /\ bwf vars c2 c)) in F'. assert (M : mapM (partial_bpredict tn X mu1) cs = mapM (partial_bpredict tn X mu1) cs'); [|destruct C; [reflexivity|rewrite M; reflexivity]].
    revert IH F F'. clear - S1 S2 N1 N2 C. induction C as [|x z a b E C IHC]; intros IH F F'; [reflexivity|]. inversion IH; subst. inversion F; subst. inversion F'; subst. cbn [mapM]. rewrite (H1 z mu1) by tauto. rewrite IHC by assumption. reflexivity.
  Qed.
  Lemma brules_same th t : forall u prefix, bwf vars c1 t -> bwf vars c2 u -> btree_eqb t u = true -> get_brules t prefix th = get_brules u prefix th.
  Proof.
    induction t as [l cs cv lv va vr mu0 ig IH] using btree_ind'. intros [l' cs' cv' lv' va' vr' mu' ig'] prefix W W' H. apply btree_eqb_unfold in H. destruct H as (<- & C & K & <- & <- & <-). cbn [bwf] in W, W'. destruct W as (O & W). destruct W' as (O' & W'). cbn [get_brules].
    match goal with |- bind ?r _ = bind ?r' _ => assert (E : r = r') end.
    { destruct va as [[a i]|]; [|reflexivity]. rewrite (@bown_ok_same _ _ _ _ O O') by discriminate. reflexivity. }
    rewrite E. match goal with |- bind ?r _ = _ => destruct r as [rule1|]; [|reflexivity] end. cbn [bind]. destruct l; [rewrite (class_same S1 S2 N1 N2 W W' K); reflexivity|].
    destruct W as (_ & F). destruct W' as (_ & F'). rewrite (fold_and (fun c => b_value c <> None /\ bwf vars c1 c)) in F. rewrite (fold_and (fun c => b_value c <> None /\ bwf vars c2 c)) in F'. assert (M : mapM (fun c => get_brules c rule1 th) cs = mapM (fun c => get_brules c rule1 th) cs'); [|rewrite M; reflexivity].
    revert IH F F'. clear - S1 S2 N1 N2 C. induction C as [|x z a b E C IHC]; intros IH F F'; [reflexivity|]. inversion IH; subst. inversion F; subst. inversion F'; subst. cbn [mapM]. rewrite (H1 z rule1) by tauto. rewrite IHC by assumption. reflexivity.
  Qed.
End Same.

(** ** rules *)
Lemma prule_eqb_spec r s : prule_eqb r s = true <-> p_ant r = p_ant s /\ p_cons r = p_cons s /\ p_weight r = p_weight s.
Proof. unfold prule_eqb. rewrite !andb_true_iff, eqb_eq, Z.eqb_eq, qeqb_eq. tauto. Qed.
Lemma plain_matching tn m r : pmatching tn m (plain_rule r) = matching_tn tn m r.
Proof.
  unfold pmatching, plain_rule, matching_tn. cbn [p_multi p_ant]. f_equal. f_equal. induction (r_ant r) as [|[f v] l IH]; [reflexivity|]. cbn [map mapM fst snd]. unfold degree_of at 1, degree at 1. cbn [snd]. rewrite IH. reflexivity.
Qed.
Lemma multi_matching tn m r : pmatching tn m (multi_rule r) = matching_multi_tn tn m r.
Proof.
  unfold pmatching, multi_rule, matching_multi_tn. cbn [p_multi p_ant]. f_equal. f_equal. induction (r_ant r) as [|[f v] l IH]; [reflexivity|]. cbn [map mapM fst snd iterate]. rewrite IH. reflexivity.
Qed.
Lemma plain_hash h r : prule_hash h (plain_rule r) = Ok (h (p_ant (plain_rule r), r_cons r, r_weight r)).
Proof.
  unfold prule_hash. assert (E : existsb (fun fv : string * lit => match snd fv with LList _ => true | _ => false end) (p_ant (plain_rule r)) = false); [|rewrite E; reflexivity].
  cbn [p_ant plain_rule]. induction (r_ant r) as [|[f v] l IH]; [reflexivity|]. exact IH.
Qed.
Lemma multi_hash h r : r_ant r <> [] -> prule_hash h (multi_rule r) = Err TypeError.
Proof. intro N. unfold prule_hash, multi_rule. cbn [p_ant]. destruct (r_ant r) as [|[f v] l]; [congruence|]. reflexivity. Qed.

(** ** sets *)
Lemma cset_lt_spec s o : cset_lt s o = true <-> pa s < pa o \/ (pa s = pa o /\ (pb s < pb o \/ (pb s = pb o /\ pc s < pc o))).
Proof.
  unfold cset_lt. destruct (qltb (pa s) (pa o)) eqn:A; [apply qltb_lt in A; tauto|]. apply qltb_ge in A. destruct (qltb (pa o) (pa s)) eqn:A'; [apply qltb_lt in A'; split; [discriminate|]; intros [H|(H & _)]; exfalso; revert H; clear - A'; intro; [qlra|rewrite H in A'; qlra]|]. apply qltb_ge in A'.
  assert (EA : pa s = pa o) by (apply Qcle_antisym; assumption). rewrite EA.
  destruct (qltb (pb s) (pb o)) eqn:B; [apply qltb_lt in B; tauto|]. apply qltb_ge in B. destruct (qltb (pb o) (pb s)) eqn:B'; [apply qltb_lt in B'; split; [discriminate|]; intros [H|(_ & [H|(H & _)])]; exfalso; [clear - H; qlra|clear - H B'; qlra|rewrite H in B'; clear - B'; qlra]|]. apply qltb_ge in B'.
  assert (EB : pb s = pb o) by (apply Qcle_antisym; assumption). rewrite EB, qltb_lt. split; [tauto|]. intros [H|(_ & [H|(_ & H)])]; [exfalso; clear - H; qlra|exfalso; clear - H; qlra|exact H].
Qed.
Lemma cset_incomparable s o : cset_lt s o = false -> cset_lt o s = false -> pa s = pa o /\ pb s = pb o /\ pc s = pc o.
Proof.
  intros H H'. assert (N : ~ (cset_lt s o = true)) by congruence. assert (N' : ~ (cset_lt o s = true)) by congruence. rewrite cset_lt_spec in N, N'.
  destruct (Qc_dec (pa s) (pa o)) as [[A|A]|A]; [tauto|tauto|]. destruct (Qc_dec (pb s) (pb o)) as [[B|B]|B]; [tauto|apply eq_sym in A; tauto|]. destruct (Qc_dec (pc s) (pc o)) as [[C|C]|C]; [tauto|apply eq_sym in A, B; tauto|]. tauto.
Qed.
Lemma fset_eqb_spec s o : fset_eqb s o = true <-> s = o.
Proof.
  destruct s as [[n a b c p]|n v], o as [[n' a' b' c' p']|n' v']; cbn; try (split; discriminate).
  - rewrite !andb_true_iff, eqb_eq, !qeqb_eq, Bool.eqb_true_iff. split; [intros ((-> & ((-> & ->) & ->)) & ->); reflexivity|intro H; injection H; tauto].
  - rewrite andb_true_iff, !eqb_eq. split; [intros (-> & ->); reflexivity|intro H; injection H; tauto].
Qed.
Lemma cset_lt_trans a b c : cset_lt a b = true -> cset_lt b c = true -> cset_lt a c = true.
Proof.
  rewrite !cset_lt_spec. intros [A|(A & [B|(B & C)])] [A'|(A' & [B'|(B' & C')])];
    rewrite ?A in *; rewrite ?A' in *; rewrite ?B in *; rewrite ?B' in *; try (left; clear - A A'; qlra); try (left; clear - A; assumption); try (left; assumption); right; (split; [reflexivity|]);
    try (left; assumption); try (left; clear - B B'; qlra); right; (split; [reflexivity|]); clear - C C'; qlra.
Qed.

(** the triangles over ascending points ascend *)
Lemma middle_last_sorted d : StronglySorted (fun a b : string * Qc => snd a < snd b) d ->
  StronglySorted (fun a b => cset_lt a b = true) (middle_sets d ++ last_set d) /\ forall x y r, d = x :: y :: r -> Forall (fun s => snd x <= pa s /\ snd y <= pb s) (middle_sets d ++ last_set d).
Proof.
  induction d as [|x [|y [|z r]] IH]; intro S.
  - split; [constructor|discriminate].
  - split; [constructor|discriminate].
  - cbn. split; [repeat constructor|]. intros x' y' r' E. injection E as <- <- <-. repeat constructor; apply Qcle_refl.
  - inversion S as [|? ? S' F]; subst. destruct (IH S') as (A & B). specialize (B y z r eq_refl). inversion F as [|? ? XY F']; subst. inversion F' as [|? ? XZ _]; subst. inversion S' as [|? ? _ G]; subst. inversion G as [|? ? YZ _]; subst.
    change (middle_sets (x :: y :: z :: r) ++ last_set (x :: y :: z :: r)) with (mkC (fst y) (snd x) (snd y) (snd z) false :: middle_sets (y :: z :: r) ++ last_set (y :: z :: r)).
    split.
    + constructor; [exact A|]. rewrite Forall_forall in B |- *. intros s Hs. destruct (B s Hs) as (B1 & B2). apply cset_lt_spec. left. cbn. clear - XY B1. qlra.
    + intros x' y' r' E. injection E as <- <- <-. constructor; [split; apply Qcle_refl|]. rewrite Forall_forall in B |- *. intros s Hs. destruct (B s Hs) as (B1 & B2). split; [clear - XY B1; qlra|clear - YZ B2; qlra].
Qed.
Lemma continuous_sorted method d sets : StronglySorted (fun a b : string * Qc => snd a < snd b) d -> continuous_sets method d = Ok sets -> StronglySorted (fun a b => cset_lt a b = true) sets.
Proof.
  intros S H. destruct d as [|x [|y r]]; cbn [continuous_sets] in H; [discriminate| |].
  - destruct (eqb method "point_set"); [|discriminate]. assert (E : sets = point_set x) by congruence. subst. repeat constructor.
  - assert (E : sets = mkC (fst x) (snd x) (snd x) (snd y) false :: middle_sets (x :: y :: r) ++ last_set (x :: y :: r)) by congruence. subst. destruct (middle_last_sorted S) as (A & B). specialize (B x y r eq_refl). constructor; [exact A|].
    rewrite Forall_forall in B |- *. intros s Hs. destruct (B s Hs) as (B1 & B2). apply cset_lt_spec. cbn. inversion S as [|? ? _ F]; subst. inversion F as [|? ? XY _]; subst. destruct (Qcle_lt_or_eq _ _ B1) as [L|L]; [left; exact L|]. right. split; [exact L|]. left. clear - XY B2. qlra.
Qed.
Lemma brules_nonempty th t : forall prefix rs, get_brules t prefix th = Ok rs -> (prefix <> [] \/ b_value t <> None) -> forall vars cs, bwf vars cs t -> Forall (fun r => r_ant r <> []) rs.
Proof.
  induction t as [l cs cv lv va vr mu ig IH] using btree_ind'. intros prefix rs H N vars cls W. cbn [bwf] in W. destruct W as (O & W). cbn [get_brules b_value] in *.
  match type of H with bind ?r _ = _ => destruct r as [rule1|] eqn:E; [|discriminate] end. cbn [bind] in H.
  assert (NR : rule1 <> []). { destruct va as [[a g]|]; [|destruct N as [N|N]; congruence]. destruct vr as [v|]; [|discriminate]. cbn [ret_opt bind] in E. match type of E with bind ?r _ = _ => destruct r; [|discriminate] end. cbn [bind] in E. assert (EE : rule1 = prefix ++ [(fv_name v, a0)]) by congruence. rewrite EE. destruct prefix; discriminate. }
  destruct l.
  - destruct cv as [d|]; [|discriminate]. cbn [ret_opt bind] in H. assert (EE : rs = map (fun kw => mkR rule1 (fst kw) (snd kw)) (filter (fun kw => qltb th (snd kw)) d)) by congruence. subst rs. apply Forall_forall. intros r R. apply in_map_iff in R. destruct R as (kw & <- & _). exact NR.
  - match type of H with bind ?r _ = _ => destruct r as [ls|] eqn:M; [|discriminate] end. cbn [bind] in H. assert (EE : rs = List.concat ls) by congruence. subst rs. destruct W as (_ & F). rewrite (fold_and (fun c => b_value c <> None /\ bwf vars cls c)) in F. clear H E N. apply mapM_ok in M. induction M as [|c r cs' ls' E M IHM]; [constructor|]. inversion IH; subst. inversion F; subst. cbn [List.concat]. apply Forall_app. split; [|apply IHM; assumption].
    eapply H1; [exact E|left; exact NR|apply H3].
Qed.
Lemma binner_nonempty th t rs vars cs : b_leaf t = false -> bwf vars cs t -> get_brules t [] th = Ok rs -> Forall (fun r => r_ant r <> []) rs.
Proof.
  destruct t as [l ch cv lv va vr mu ig]. intros L W H. cbn [b_leaf] in L. subst l. cbn [bwf] in W. destruct W as (O & _ & F). rewrite (fold_and (fun c => b_value c <> None /\ bwf vars cs c)) in F. cbn [get_brules] in H.
  match type of H with bind ?r _ = _ => destruct r as [rule1|] eqn:E; [|discriminate] end. cbn [bind] in H. match type of H with bind ?r _ = _ => destruct r as [ls|] eqn:M; [|discriminate] end. cbn [bind] in H. assert (EE : rs = List.concat ls) by congruence. subst rs. clear H E.
  apply mapM_ok in M. induction M as [|c r cs' ls' E M IHM]; [constructor|]. inversion F; subst. cbn [List.concat]. apply Forall_app. split; [|apply IHM; assumption]. eapply brules_nonempty; [exact E|right; apply H1|apply H1].
Qed.
Lemma simplify_nonempty V (len : V -> nat) r : r_ant r <> [] -> r_ant (simplify len r) <> [].
Proof.
  intro N. cbn [simplify r_ant]. unfold simplify_ant. destruct (r_ant r) as [|fv l]; [congruence|]. cbn [fold_left dget].
  assert (G : forall d : dict string V, d <> [] -> fold_left (fun d fv => match dget (fst fv) d with None => dset (fst fv) (snd fv) d | Some old => if Nat.ltb (len (snd fv)) (len old) then dset (fst fv) (snd fv) d else d end) l d <> []).
  { assert (DS : forall (k : string) (v : V) (d : dict string V), dset k v d <> []) by (intros k v [|[k' v'] d]; cbn; [discriminate|destruct (eqb k k'); discriminate]).
    clear N. induction l as [|x l IH]; intros d D; [exact D|]. cbn [fold_left]. apply IH. destruct (dget (fst x) d); [destruct (Nat.ltb _ _); [apply DS|exact D]|apply DS]. }
  apply G. cbn. discriminate.
Qed.
