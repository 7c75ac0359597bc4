(** * Training with shared arrays = training with private copies *)
From Verif Require Import Prelude M_Fuzzy M_Discretize M_Rule M_FDT S_Rule S_FDT P_FuzzyVar P_FDT M_FBDT S_FBDT S_FBDTPrivate P_FBDT P_Counterfactual.
From Coq Require Import Reals Lra.
Set Implicit Arguments.
Open Scope Qc_scope.

(** ** marking *)
Definition inert (m A : list Qc) : Prop := Forall2 (fun x a => ~ (0 < qmax x a /\ qmax x a < 1)) m A.
Lemma between_iff x : (qltb 0 x && qltb x 1)%bool = true <-> 0 < x /\ x < 1.
Proof. rewrite andb_true_iff, !qltb_lt. reflexivity. Qed.
Lemma inert_mark m A : inert m A -> mark (map2 qmax m A) A = A.
Proof.
  intro I. unfold mark. induction I as [|x a m A N I IH]; [reflexivity|]. cbn [map2]. rewrite IH. f_equal. destruct (qltb 0 (qmax x a) && qltb (qmax x a) 1)%bool eqn:E; [|reflexivity]. apply between_iff in E. contradiction.
Qed.
Lemma not_between_one x : ~ (0 < qmax x 1 /\ qmax x 1 < 1).
Proof. intros (_ & H). assert (L := qmax_r x 1). qlra. Qed.
Lemma mark_inert m A : List.length m = List.length A -> inert m (mark (map2 qmax m A) A).
Proof.
  revert A. induction m as [|x m IH]; intros [|a A] L; try discriminate; [constructor|]. cbn [map2 mark]. constructor; [|apply IH; cbn in L; congruence].
  destruct (qltb 0 (qmax x a) && qltb (qmax x a) 1)%bool eqn:E; [apply not_between_one|]. intro H. apply between_iff in H. congruence.
Qed.
Lemma inert_mono m m' A : inert m A -> List.length m' = List.length A -> inert m (mark (map2 qmax m' A) A).
Proof.
  intro I. revert m'. induction I as [|x a m A N I IH]; intros [|x' m'] L; try discriminate; [constructor|]. cbn [map2 mark]. constructor; [|apply IH; cbn in L; congruence].
  destruct (qltb 0 (qmax x' a) && qltb (qmax x' a) 1)%bool; [apply not_between_one|assumption].
Qed.
Lemma mark_length m A : List.length m = List.length A -> List.length (mark (map2 qmax m A) A) = List.length A.
Proof. intro L. unfold mark. rewrite !map2_length, L. rewrite !Nat.min_id. reflexivity. Qed.

(** ** the heap represents the private marks *)
Definition rep (h : heap) (ign : dict string nat) (vign : marks) : Prop :=
  (forall f, match dget f ign, dget f vign with Some a, Some A => (a < List.length h)%nat /\ hread h a = A | None, None => True | _, _ => False end) /\
  (forall f g a, dget f ign = Some a -> dget g ign = Some a -> f = g).
Lemma rep_some h ign vign f a : rep h ign vign -> dget f ign = Some a -> (a < List.length h)%nat /\ dget f vign = Some (hread h a).
Proof. intros (R & _) E. specialize (R f). rewrite E in R. destruct (dget f vign); [|contradiction]. destruct R as (L & <-). split; [assumption|reflexivity]. Qed.
Lemma rep_none h ign vign f : rep h ign vign -> dget f ign = None -> dget f vign = None.
Proof. intros (R & _) E. specialize (R f). rewrite E in R. destruct (dget f vign); [contradiction|reflexivity]. Qed.
Lemma side_rep h mu ign vign XM n f sets : rep h ign vign ->
  match vscore_side mu vign XM n f sets with
  | Err e => score_side h mu ign XM n f sets = Err e
  | Ok (vign', mu', B) => exists h' a, score_side h mu ign XM n f sets = Ok (h', mu', a) /\ rep h' ign vign' /\ (List.length h <= List.length h')%nat /\ (a < List.length h')%nat /\ hread h' a = B /\
      (dget f ign = Some a \/ dget f ign = None /\ a = List.length h) /\
      (forall b, (b < List.length h)%nat -> (dget f ign = Some b -> forall m, sum_sets XM n f sets = Ok m -> inert m (hread h b)) -> hread h' b = hread h b)
  end.
Proof.
  intros R. unfold vscore_side, score_side. destruct (sum_sets XM n f sets) as [m|e]; cbn [bind]; [|reflexivity]. destruct (dget f ign) as [a|] eqn:E.
  - destruct (rep_some f R E) as (L & V). rewrite V. cbv zeta. exists (hwrite h a (mark (map2 qmax m (hread h a)) (hread h a))), a. split; [reflexivity|]. rewrite hwrite_length, hwrite_same by assumption.
    split; [|split; [lia|split; [assumption|split; [reflexivity|split; [left; reflexivity|]]]]].
    + destruct R as (R & D). split; [|exact D]. intro g. rewrite hwrite_length, dset_get. specialize (R g). unfold eqb. destruct (eq_dec g f) as [->|N].
      * rewrite E. split; [assumption|]. apply hwrite_same. assumption.
      * destruct (dget g ign) as [b|] eqn:G; [|assumption]. destruct (dget g vign) as [A|]; [|assumption]. destruct R as (Lb & <-). split; [assumption|]. apply hwrite_other. intros ->. apply N. exact (D g f b G E).
    + intros b Lb I. destruct (Nat.eq_dec a b) as [->|N]; [|apply hwrite_other; assumption]. rewrite hwrite_same by assumption. apply inert_mark. exact (I eq_refl m eq_refl).
  - rewrite (rep_none f R E). unfold halloc. exists (hwrite (h ++ [repeat 0 n]) (List.length h) (mark m (repeat 0 n))), (List.length h). rewrite hread_new. split; [reflexivity|]. rewrite hwrite_length, app_length. cbn [List.length].
    assert (FR : forall b, (b < List.length h)%nat -> hread (hwrite (h ++ [repeat 0 n]) (List.length h) (mark m (repeat 0 n))) b = hread h b).
    { intros b Lb. rewrite hwrite_other by lia. apply hread_app. assumption. }
    split; [|split; [lia|split; [lia|split; [apply hwrite_same; rewrite app_length; cbn; lia|split; [right; split; reflexivity|intros b Lb _; apply FR; assumption]]]]].
    destruct R as (R & D). split; [|exact D]. intro g. specialize (R g). destruct (dget g ign) as [b|]; [|assumption]. destruct (dget g vign) as [A|]; [|assumption]. destruct R as (Lb & <-). rewrite hwrite_length, app_length. split; [cbn; lia|]. apply FR. assumption.
Qed.
(** [base]: fresh arrays lie above this address *)
Definition split_rep (base : nat) (h : heap) (ign : dict string nat) (s : bsplit) (w : vsplit) : Prop :=
  s_att s = v_att w /\ s_gain s = v_gain w /\ s_lmu s = v_lmu w /\ s_rmu s = v_rmu w /\ s_left s = v_left w /\ s_right s = v_right w /\
  match dget (s_att s) ign with
  | Some a => s_lign s = a /\ s_rign s = a
  | None => s_lign s <> s_rign s /\ (base <= s_lign s < List.length h)%nat /\ (base <= s_rign s < List.length h)%nat /\
            (forall f, dget f ign <> Some (s_lign s)) /\ (forall f, dget f ign <> Some (s_rign s)) /\ hread h (s_lign s) = v_lmarks w /\ hread h (s_rign s) = v_rmarks w
  end.
Definition best_rep base h ign (b : option bsplit) (w : option vsplit) : Prop :=
  match b, w with None, None => True | Some s, Some w => split_rep base h ign s w | _, _ => False end.
Lemma best_rep_gain base h ign b w : best_rep base h ign b w -> best_gain b = vbest_gain w.
Proof. destruct b, w; cbn; try contradiction; [intros (_ & H & _); assumption|reflexivity]. Qed.
Lemma best_rep_keep base h h' ign b w : best_rep base h ign b w -> (List.length h <= List.length h')%nat -> (forall a, (a < List.length h)%nat -> (forall f, dget f ign <> Some a) -> hread h' a = hread h a) -> best_rep base h' ign b w.
Proof.
  destruct b as [s|], w as [w|]; cbn; try tauto. intros (A & B & C & D & E & F & G) L K. unfold split_rep. repeat (split; [assumption|]). destruct (dget (s_att s) ign); [assumption|]. destruct G as (G1 & G2 & G3 & G4 & G5 & G6 & G7).
  split; [assumption|]. split; [lia|]. split; [lia|]. split; [assumption|]. split; [assumption|]. rewrite !K by (lia || assumption). split; assumption.
Qed.
Lemma partition_rep base h mu ign vign XM y b w p : rep h ign vign -> best_rep base h ign b w -> (base <= List.length h)%nat -> (forall f a, dget f ign = Some a -> (a < base)%nat) ->
  match vscore_partition XM y mu (vign, w) p with
  | Err e => score_partition XM y mu ign (h, b) p = Err e
  | Ok (vign', w') => exists h' b', score_partition XM y mu ign (h, b) p = Ok (h', b') /\ rep h' ign vign' /\ best_rep base h' ign b' w' /\ (List.length h <= List.length h')%nat /\
      (forall a, (a < List.length h)%nat -> (dget (fst (fst p)) ign = Some a -> forall m, sum_sets XM (List.length y) (fst (fst p)) (snd (fst p)) = Ok m \/ sum_sets XM (List.length y) (fst (fst p)) (snd p) = Ok m -> inert m (hread h a)) -> hread h' a = hread h a)
  end.
Proof.
  intros R B LB AB. destruct p as [[f ls] rs]. unfold vscore_partition, score_partition. cbn [fst snd].
  assert (S1 := @side_rep h mu ign vign XM (List.length y) f ls R). destruct (vscore_side mu vign XM (List.length y) f ls) as [[[vign1 lmu] lm]|e]; [|rewrite S1; reflexivity].
  destruct S1 as (h1 & la & E1 & R1 & L1 & A1 & M1 & W1 & F1). rewrite E1. cbn [bind].
  assert (S2 := @side_rep h1 mu ign vign1 XM (List.length y) f rs R1). destruct (vscore_side mu vign1 XM (List.length y) f rs) as [[[vign2 rmu] rm]|e]; [|rewrite S2; reflexivity].
  destruct S2 as (h2 & ra & E2 & R2 & L2 & A2 & M2 & W2 & F2). rewrite E2. cbn [bind]. destruct (split_gain mu lmu rmu y) as [g|e]; [|reflexivity]. cbn [bind].
  exists h2. eexists. split; [reflexivity|]. split; [assumption|]. split; [|split; [lia|]].
  - rewrite (@best_rep_gain base h ign b w B). destruct (Rltb (vbest_gain w) g).
    + cbn. unfold split_rep. cbn [s_att s_gain s_lmu s_rmu s_left s_right s_lign s_rign v_att v_gain v_lmu v_rmu v_left v_right v_lmarks v_rmarks]. splits; try reflexivity. destruct (dget f ign) as [a|] eqn:E.
      * destruct W1 as [W1|[W1 _]]; [|discriminate]. destruct W2 as [W2|[W2 _]]; [|discriminate]. split; congruence.
      * destruct W1 as [W1|[_ W1]]; [discriminate|]. destruct W2 as [W2|[_ W2]]; [discriminate|]. subst la ra. split; [lia|]. split; [lia|]. split; [lia|].
        split; [intros f' Q; specialize (AB f' _ Q); lia|]. split; [intros f' Q; specialize (AB f' _ Q); lia|]. split; [|assumption]. rewrite F2; [assumption|assumption|]. intro Q. congruence.
    + apply (@best_rep_keep base h h2 ign b w B); [lia|]. intros a La NA. rewrite F2, F1; [reflexivity|assumption|intro Q; destruct (NA f Q)|lia|intro Q; destruct (NA f Q)].
  - intros a La I. assert (Q1 : hread h1 a = hread h a) by (apply F1; [assumption|intros Q m M; apply (I Q); left; assumption]). rewrite F2; [assumption|lia|]. intros Q m M. rewrite Q1. apply (I Q). right. assumption.
Qed.
Lemma fold_rep base mu ign XM y ps : forall h vign b w, rep h ign vign -> best_rep base h ign b w -> (base <= List.length h)%nat -> (forall f a, dget f ign = Some a -> (a < base)%nat) ->
  match foldM (vscore_partition XM y mu) (vign, w) ps with
  | Err e => foldM (score_partition XM y mu ign) (h, b) ps = Err e
  | Ok (vign', w') => exists h' b', foldM (score_partition XM y mu ign) (h, b) ps = Ok (h', b') /\ rep h' ign vign' /\ best_rep base h' ign b' w' /\ (List.length h <= List.length h')%nat /\
      (forall a, (a < List.length h)%nat -> (forall f l r m, In (f, l, r) ps -> dget f ign = Some a -> sum_sets XM (List.length y) f l = Ok m \/ sum_sets XM (List.length y) f r = Ok m -> inert m (hread h a)) -> hread h' a = hread h a)
  end.
Proof.
  induction ps as [|p ps IH]; intros h vign b w R B LB AB; cbn [foldM]; [exists h, b; splits; [reflexivity|assumption|assumption|lia|reflexivity]|].
  assert (S := @partition_rep base h mu ign vign XM y b w p R B LB AB). destruct (vscore_partition XM y mu (vign, w) p) as [[vign1 w1]|e]; cbn [bind]; [|rewrite S; reflexivity].
  destruct S as (h1 & b1 & E & R1 & B1 & L1 & F1). rewrite E. cbn [bind]. assert (S := IH h1 vign1 b1 w1 R1 B1 (Nat.le_trans _ _ _ LB L1) AB).
  destruct (foldM (vscore_partition XM y mu) (vign1, w1) ps) as [[vign2 w2]|e]; [|assumption]. destruct S as (h2 & b2 & E2 & R2 & B2 & L2 & F2). exists h2, b2. splits; [assumption|assumption|assumption|lia|].
  intros a La I. destruct p as [[f l] r]. cbn [fst snd] in F1. assert (Q : hread h1 a = hread h a) by (apply F1; [assumption|intros G m M; exact (I f l r m (or_introl eq_refl) G M)]).
  rewrite F2; [assumption|lia|]. intros f' l' r' m I' G M. rewrite Q. exact (I f' l' r' m (or_intror I') G M).
Qed.

(** ** after scoring, the marks of a node are settled *)
Definition lens (n : nat) (vign : marks) : Prop := forall f A, dget f vign = Some A -> List.length A = n.
Definition grows (n : nat) (vign vign' : marks) : Prop :=
  lens n vign' /\ forall f A', dget f vign' = Some A' -> exists A, dget f vign = Some A /\ forall m, inert m A -> inert m A'.
Lemma grows_refl n vign : lens n vign -> grows n vign vign.
Proof. intro L. split; [assumption|]. intros f A E. exists A. auto. Qed.
Lemma grows_trans n v1 v2 v3 : grows n v1 v2 -> grows n v2 v3 -> grows n v1 v3.
Proof.
  intros (_ & G1) (L & G2). split; [assumption|]. intros f A E. destruct (G2 f A E) as (A2 & E2 & K2). destruct (G1 f A2 E2) as (A1 & E1 & K1). exists A1. auto.
Qed.
Lemma side_settled mu vign XM n f sets vign' mu' B : lens n vign -> (forall m, sum_sets XM n f sets = Ok m -> List.length m = n) -> vscore_side mu vign XM n f sets = Ok (vign', mu', B) ->
  grows n vign vign' /\ forall A m, dget f vign' = Some A -> sum_sets XM n f sets = Ok m -> inert m A.
Proof.
  intros L S H. unfold vscore_side in H. destruct (sum_sets XM n f sets) as [m|]; [|discriminate]. cbn [bind] in H. specialize (S m eq_refl). destruct (dget f vign) as [A|] eqn:E.
  - assert (V : vign' = dset f (mark (map2 qmax m A) A) vign) by congruence. clear H. subst vign'. assert (LA := L f A E). split.
    + split.
      * intros g A' EA. rewrite dset_get in EA. destruct (eqb g f); [|exact (L g A' EA)]. injection EA as <-. rewrite mark_length; congruence.
      * intros g A' EA. rewrite dset_get in EA. unfold eqb in EA. destruct (eq_dec g f) as [->|N]; [|exists A'; auto]. injection EA as <-. exists A. split; [assumption|]. intros m' I. apply inert_mono; [assumption|congruence].
    + intros A' m' EA EM. rewrite dset_get, eqb_refl in EA. injection EA as <-. injection EM as <-. apply mark_inert. congruence.
  - assert (V : vign' = vign) by congruence. subst vign'. split; [apply grows_refl; assumption|]. intros A m' EA. congruence.
Qed.
Lemma fold_settled mu XM y ps : forall vign w vign' w', lens (List.length y) vign ->
  (forall f l r m, In (f, l, r) ps -> sum_sets XM (List.length y) f l = Ok m \/ sum_sets XM (List.length y) f r = Ok m -> List.length m = List.length y) ->
  foldM (vscore_partition XM y mu) (vign, w) ps = Ok (vign', w') ->
  grows (List.length y) vign vign' /\
  forall f l r A m, In (f, l, r) ps -> dget f vign' = Some A -> sum_sets XM (List.length y) f l = Ok m \/ sum_sets XM (List.length y) f r = Ok m -> inert m A.
Proof.
  induction ps as [|[[f l] r] ps IH]; intros vign w vign' w' L S H.
  - cbn [foldM] in H. assert (V : vign' = vign) by congruence. subst vign'. split; [apply grows_refl; assumption|]. intros ? ? ? ? ? [].
  - cbn [foldM] in H. unfold vscore_partition at 1 in H. cbn [fst snd] in H.
    destruct (vscore_side mu vign XM (List.length y) f l) as [[[v1 lmu] lm]|] eqn:E1; [|discriminate]. cbn [bind] in H.
    destruct (vscore_side mu v1 XM (List.length y) f r) as [[[v2 rmu] rm]|] eqn:E2; [|discriminate]. cbn [bind] in H.
    destruct (split_gain mu lmu rmu y) as [g|]; [|discriminate]. cbn [bind] in H.
    destruct (@side_settled _ _ _ _ _ _ _ _ _ L (fun m M => S f l r m (or_introl eq_refl) (or_introl M)) E1) as (G1 & T1).
    destruct (@side_settled _ _ _ _ _ _ _ _ _ (proj1 G1) (fun m M => S f l r m (or_introl eq_refl) (or_intror M)) E2) as (G2 & T2).
    destruct (IH _ _ _ _ (proj1 G2) (fun f' l' r' m I => S f' l' r' m (or_intror I)) H) as (G3 & T3).
    split; [exact (grows_trans (grows_trans G1 G2) G3)|]. intros f' l' r' A m [Q|I] EA M; [|exact (T3 f' l' r' A m I EA M)].
    injection Q as <- <- <-. destruct (proj2 G3 f A EA) as (A2 & EA2 & K3). apply K3. destruct M as [M|M]; [|exact (T2 A2 m EA2 M)].
    destruct (proj2 G2 f A2 EA2) as (A1 & EA1 & K2). apply K2. exact (T1 A1 m EA1 M).
Qed.
(** ** what a child starts with *)
Lemma qmax_idem x : qmax x x = x.
Proof. unfold qmax. destruct (qltb x x); reflexivity. Qed.
Lemma map2_qmax_idem A : map2 qmax A A = A.
Proof. induction A as [|x A IH]; [reflexivity|]. cbn [map2]. rewrite IH, qmax_idem. reflexivity. Qed.
Lemma child_rep h ign vign f ad B h2 cign : rep h ign vign -> (ad < List.length h)%nat ->
  match dget f ign with Some a => ad = a | None => (forall g, dget g ign <> Some ad) /\ hread h ad = B end ->
  update_ignored h ign f ad = (h2, cign) ->
  rep h2 cign (inherit vign f B) /\ (List.length h <= List.length h2)%nat /\ (forall b, (b < List.length h)%nat -> hread h2 b = hread h b) /\
  (forall g b, dget g cign = Some b -> (b < List.length h)%nat -> (g <> f /\ dget g ign = Some b) \/ (g = f /\ dget f ign = None /\ b = ad)).
Proof.
  intros R La C U. unfold update_ignored in U. unfold inherit. destruct (dget f ign) as [a|] eqn:E.
  - subst ad. destruct (rep_some f R E) as (_ & V). rewrite V. unfold halloc in U. rewrite map2_qmax_idem in U. injection U as <- <-. rewrite app_length. cbn [List.length].
    assert (FR : forall b, (b < List.length h)%nat -> hread (h ++ [hread h a]) b = hread h b) by (intros b Lb; apply hread_app; assumption).
    split; [|split; [lia|split; [exact FR|]]].
    + destruct R as (R & D). split.
      * intro g. rewrite dset_get, app_length. cbn [List.length]. unfold eqb. destruct (eq_dec g f) as [->|N]; [rewrite V, hread_new; split; [lia|reflexivity]|].
        specialize (R g). destruct (dget g ign) as [b|]; [|assumption]. destruct (dget g vign) as [A|]; [|assumption]. destruct R as (Lb & <-). split; [lia|]. apply FR. assumption.
      * intros g g' b. rewrite !dset_get. unfold eqb. destruct (eq_dec g f) as [->|N], (eq_dec g' f) as [->|N']; intros G G'.
        -- reflexivity.
        -- injection G as <-. assert (X := R g'). rewrite G' in X. destruct (dget g' vign); [lia|contradiction].
        -- injection G' as <-. assert (X := R g). rewrite G in X. destruct (dget g vign); [lia|contradiction].
        -- exact (D g g' b G G').
    + intros g b G Lb. rewrite dset_get in G. unfold eqb in G. destruct (eq_dec g f) as [->|N]; [injection G as <-; lia|]. left. auto.
  - rewrite (rep_none f R E). destruct C as (NA & <-). injection U as <- <-. split; [|split; [lia|split; [reflexivity|]]].
    + destruct R as (R & D). split.
      * intro g. rewrite !dset_get. unfold eqb. destruct (eq_dec g f) as [->|N]; [split; [assumption|reflexivity]|]. exact (R g).
      * intros g g' b. rewrite !dset_get. unfold eqb. destruct (eq_dec g f) as [->|N], (eq_dec g' f) as [->|N']; intros G G'.
        -- reflexivity.
        -- injection G as <-. destruct (NA g' G').
        -- injection G' as <-. destruct (NA g G).
        -- exact (D g g' b G G').
    + intros g b G Lb. rewrite dset_get in G. unfold eqb in G. destruct (eq_dec g f) as [->|N]; [injection G as <-; right; auto|]. left. auto.
Qed.
Lemma F2_In_r A B (R : A -> B -> Prop) l l' b : Forall2 R l l' -> In b l' -> exists a, In a l /\ R a b.
Proof. intro F. induction F as [|x z l l' H F IH]; [intros []|]. intros [<-|I]; [exists x; split; [left; reflexivity|assumption]|]. destruct (IH I) as (a & Ia & Ra). exists a. split; [right|]; assumption. Qed.
Lemma F2_In_l A B (R : A -> B -> Prop) l l' a : Forall2 R l l' -> In a l -> exists b, In b l' /\ R a b.
Proof. intro F. induction F as [|x z l l' H F IH]; [intros []|]. intros [<-|I]; [exists z; split; [left; reflexivity|assumption]|]. destruct (IH I) as (b & Ia & Ra). exists b. split; [right|]; assumption. Qed.
(** ** the candidate partitions of a feature depend on its own available sets only *)
Definition entry_partitions (psort : list (string * option Qc) -> list (string * option Qc)) (cats : list string) (XM : xmem) (y : list Z) (c : Z) (fs : string * list string) : res (list partition) :=
  if memb (fst fs) cats then
    do keyed <- mapM (fun val => do col <- set_column XM (fst fs) val; Ok (val, positive_share col y c)) (snd fs);
    Ok (cuts (fst fs) (map fst (psort keyed)))
  else Ok (cuts (fst fs) (snd fs)).
Lemma entry_feature psort cats XM y c fs ps f l r : entry_partitions psort cats XM y c fs = Ok ps -> In (f, l, r) ps -> f = fst fs.
Proof.
  unfold entry_partitions. intros H I. assert (Q : exists s, ps = cuts (fst fs) s).
  { destruct (memb (fst fs) cats); [|injection H as <-; eauto]. match type of H with bind ?r _ = _ => destruct r; [|discriminate] end. cbn [bind] in H. injection H as <-. eauto. }
  destruct Q as (s & ->). apply cuts_In in I. destruct I as (l' & r' & _ & _ & _ & Q). congruence.
Qed.
Lemma partitions_In psort cats fd XM y ps f l r : binary_partitions psort cats fd XM y = Ok ps ->
  (In (f, l, r) ps <-> exists c sets qs, nth_error (zunique y) 0 = Some c /\ In (f, sets) fd /\ entry_partitions psort cats XM y c (f, sets) = Ok qs /\ In (f, l, r) qs).
Proof.
  unfold binary_partitions. destruct (nth_error (zunique y) 0) as [c|]; [|discriminate]. cbn [ret_opt bind].
  change (mapM _ fd) with (mapM (entry_partitions psort cats XM y c) fd). destruct (mapM (entry_partitions psort cats XM y c) fd) as [pss|] eqn:E; [|discriminate]. cbn [bind]. intro H. injection H as <-.
  apply mapM_ok in E. rewrite in_concat. split.
  - intros (qs & Iq & I). destruct (@F2_In_r _ _ _ _ _ _ E Iq) as ([g sets] & Ig & Q). assert (f = g) by exact (@entry_feature _ _ _ _ _ _ _ _ _ _ Q I). subst g. exists c, sets, qs. auto.
  - intros (c' & sets & qs & C & Ig & Q & I). injection C as <-. destruct (@F2_In_l _ _ _ _ _ _ E Ig) as (qs' & Iq & Q'). rewrite Q in Q'. injection Q' as <-. exists qs. auto.
Qed.

Section Private.
  Variable cfg : fdt_cfg.
  Variable psort : list (string * option Qc) -> list (string * option Qc).
  Variable X : list (list cell).
  Variable y : list Z.
  Variable cats : list string.
  Hypothesis Hsort : forall l, Permutation (psort l) l.
  Hypothesis Hnames : distinct_names (f_vars cfg).
  Hypothesis Hlen : List.length X = List.length y.
  Hypothesis Hy : y <> [].
  Let vars := f_vars cfg.
  Let XM := exact_mem vars X.
  Let ND : NoDup (map fv_name vars) := proj1 Hnames.
  Let n := List.length y.
  Hypothesis Hcats : forall v, In v vars -> (In (fv_name v) cats <-> ~ continuous v).

  Definition quiet (p : list glit) (f : string) (A : list Qc) : Prop :=
    forall ps l r m, binary_partitions psort cats (fd_of cfg p) XM y = Ok ps -> In (f, l, r) ps -> sum_sets XM n f l = Ok m \/ sum_sets XM n f r = Ok m -> inert m A.
  Lemma fd_entry p a v g f sets : nth_error vars a = Some v -> f <> fv_name v -> In (f, sets) (fd_of cfg (p ++ [(a, g)])) -> In (f, sets) (fd_of cfg p).
  Proof.
    intros Hv N I. unfold fd_of in I |- *. fold vars in I |- *. apply in_map_iff in I. destruct I as ([b w] & Q & Ib). cbn [fst snd] in Q. apply enumerate_In in Ib. rewrite available_snoc in Q.
    destruct (Nat.eqb_spec a b) as [->|Ne]; [congruence|]. apply in_map_iff. exists (b, w). split; [assumption|]. apply enumerate_In. assumption.
  Qed.
  Lemma quiet_child p a v g f A : nth_error vars a = Some v -> f <> fv_name v -> quiet p f A -> quiet (p ++ [(a, g)]) f A.
  Proof.
    intros Hv N Q ps l r m E I M. apply (@partitions_In psort cats _ _ _ _ f l r E) in I. destruct I as (c & sets & qs & C & Ie & P & I).
    destruct (@partitions_ok cfg psort X y cats Hsort Hnames Hlen Hy Hcats p) as (ps0 & E0 & _).
    apply (Q ps0 l r m E0); [|assumption]. apply (@partitions_In psort cats _ _ _ _ f l r E0). exists c, sets, qs. split; [assumption|]. split; [exact (@fd_entry p a v g f sets Hv N Ie)|]. auto.
  Qed.
  Definition vfit_at (fuel : nat) (node : btree) (ign : marks) (p : list glit) : res btree := vfit fuel cfg psort cats XM y node ign (fd_of cfg p) (bplen p).
  Definition frame (h h' : heap) (p : list glit) (ign : dict string nat) : Prop :=
    forall b, (b < List.length h)%nat -> (forall g, dget g ign = Some b -> quiet p g (hread h b)) -> hread h' b = hread h b.
  Definition agrees (fuel : nat) : Prop := forall h node vign p, node_inv y h node -> rep h (b_ignored node) vign ->
    match vfit_at fuel (erase node) vign p with
    | Err e => bfit_at cfg psort X y cats fuel h node p = Err e
    | Ok t' => exists h' t, bfit_at cfg psort X y cats fuel h node p = Ok (h', t) /\ erase t = t' /\ (List.length h <= List.length h')%nat /\ frame h h' p (b_ignored node)
    end.
  Definition vgrow_at (fuel : nat) (p : list glit) (mu : list Qc) (ign1 : marks) (a : nat) (v : fvar) (g : list nat) (cmu m : list Qc) : res btree :=
    (do idx <- mapM (fun x => ret_opt KeyError (dget x (dict_of (map (fun js => (fs_name (snd js), fst js)) (enumerate (fv_sets v)))))) (map (set_name v) g);
     do avail <- ret_opt KeyError (dget (fv_name v) (fd_of cfg p));
     let cfd := dset (fv_name v) (filter (fun x => memb x (map (set_name v) g)) avail) (fd_of cfg p) in
     if qltb 0 (qsum cmu) then
       vfit fuel cfg psort cats XM y (BTree true [] None (-1) (Some (a, idx)) (Some v) cmu []) (inherit ign1 (fv_name v) m) cfd (bplen p + 1)
     else
       do cv <- get_class_value mu y;
       Ok (BTree true [] (Some cv) (-1) (Some (a, idx)) (Some v) cmu [])).
  Lemma rep_ign_ok h ign vign : rep h ign vign -> ign_ok h ign.
  Proof. intros R f a E. exact (proj1 (rep_some f R E)). Qed.
  Lemma grow_agrees fuel p node h vign a v g cmu ad B : agrees fuel -> node_inv y h node -> rep h (b_ignored node) vign -> (forall f A, dget f vign = Some A -> quiet p f A) ->
    nth_error vars a = Some v -> incl g (available vars p a) -> mu_ok y cmu -> (ad < List.length h)%nat ->
    match dget (fv_name v) (b_ignored node) with Some b => ad = b | None => (forall f, dget f (b_ignored node) <> Some ad) /\ hread h ad = B end ->
    match vgrow_at fuel p (b_mu node) vign a v g cmu B with
    | Err e => grow_at cfg psort X y cats fuel p node a v g cmu ad h = Err e
    | Ok t' => exists h' t, grow_at cfg psort X y cats fuel p node a v g cmu ad h = Ok (h', t) /\ erase t = t' /\ heap_ok y h' /\ (List.length h <= List.length h')%nat /\
        (forall b, (b < List.length h)%nat -> (dget (fv_name v) (b_ignored node) = None -> b <> ad) -> hread h' b = hread h b)
    end.
  Proof.
    intros AG NI R QT Hv Hg Hc La C. unfold vgrow_at, grow_at. rewrite (@set_indices cfg Hnames p a v g Hv Hg). cbn [bind].
    destruct (update_ignored h (b_ignored node) (fv_name v) ad) as [h2 cign] eqn:U.
    destruct (@child_rep _ _ _ _ _ _ _ _ R La C U) as (R2 & L2 & F2 & I2).
    destruct NI as (HH & HI & HM & HP). destruct (@update_ignored_ok X y Hlen _ _ _ _ _ _ HH HI La U) as (HH2 & _ & HI2).
    rewrite (@fd_get cfg Hnames p a v Hv). cbn [ret_opt bind]. cbv zeta. unfold XM, vars in *. rewrite (@fd_child cfg Hnames p a v g Hv Hg).
    destruct (qltb 0 (qsum cmu)) eqn:Q.
    - rewrite qltb_lt in Q. assert (NI2 := @child_inv y h2 (a, g) v cmu cign HH2 HI2 Hc Q). assert (AG2 := AG h2 (blank_child (a, g) v cmu cign) (inherit vign (fv_name v) B) (p ++ [(a, g)]) NI2 R2).
      assert (P : bplen (p ++ [(a, g)]) = (bplen p + 1)%Z) by (unfold bplen; rewrite app_length; cbn [List.length]; lia).
      unfold vfit_at, bfit_at in AG2. rewrite P in AG2. cbn [erase blank_child map] in AG2. unfold XM, vars in AG2.
      match type of AG2 with match ?t1 with Ok _ => _ | Err _ => _ end => match goal with |- match ?t2 with Ok _ => _ | Err _ => _ end => change t2 with t1; destruct t1 as [t'|e] end end; [|exact AG2].
      destruct AG2 as (h' & t & E & ET & L' & FR). exists h', t. split; [exact E|]. split; [assumption|].
      assert (E' : bfit_at cfg psort X y cats fuel h2 (blank_child (a, g) v cmu cign) (p ++ [(a, g)]) = Ok (h', t)) by (unfold bfit_at; rewrite P; exact E).
      destruct (@bfit_heap cfg psort X y cats Hsort Hnames Hlen Hy Hcats fuel _ _ _ _ _ NI2 E') as (HH' & _). split; [assumption|]. split; [lia|].
      intros b Lb NB. rewrite FR; [apply F2; assumption|lia|]. intros f Ef. destruct (I2 f b Ef Lb) as [(Nf & Ef')|(-> & N0 & ->)]; [|destruct (NB N0 eq_refl)].
      apply (@quiet_child p a v g f _ Hv Nf). apply QT. rewrite F2 by assumption. exact (proj2 (rep_some f R Ef')).
    - destruct (get_class_value (b_mu node) y) as [cv|e]; cbn [bind]; [|reflexivity]. exists h2. eexists. split; [reflexivity|]. split; [reflexivity|]. split; [assumption|]. split; [assumption|]. intros b Lb _. apply F2. assumption.
  Qed.
  Lemma part_sums p ps f l r m : binary_partitions psort cats (fd_of cfg p) XM y = Ok ps -> In (f, l, r) ps -> sum_sets XM n f l = Ok m \/ sum_sets XM n f r = Ok m -> List.length m = n.
  Proof.
    intros E I M. destruct (@partitions_ok cfg psort X y cats Hsort Hnames Hlen Hy Hcats p) as (ps0 & E0 & K). fold vars XM in E0. rewrite E in E0. injection E0 as <-.
    destruct (K _ I) as (a & v & g1 & g2 & (Hv & N1 & N2 & Pm & C) & Q). injection Q as -> -> ->.
    assert (I1 : incl g1 (available vars p a)) by (intros x Hx; apply (Permutation_in _ Pm); apply in_or_app; left; assumption).
    assert (I2 : incl g2 (available vars p a)) by (intros x Hx; apply (Permutation_in _ Pm); apply in_or_app; right; assumption).
    assert (S1 := @sum_sets_ok cfg X y Hnames Hlen p a v g1 Hv I1). assert (S2 := @sum_sets_ok cfg X y Hnames Hlen p a v g2 Hv I2). fold vars XM n in S1, S2. rewrite S1, S2 in M.
    destruct M as [M|M]; injection M as <-; apply (@side_sum_ok cfg X y Hlen).
  Qed.
  Lemma rep_lens h ign vign : heap_ok y h -> rep h ign vign -> lens n vign.
  Proof.
    intros HH (R & _) f A E. specialize (R f). rewrite E in R. destruct (dget f ign) as [a|]; [|contradiction]. destruct R as (La & <-). exact (HH a La).
  Qed.
  Lemma erase_fields t : b_mu (erase t) = b_mu t /\ b_children (erase t) = map erase (b_children t) /\ b_class (erase t) = b_class t /\ b_value (erase t) = b_value t /\ b_var (erase t) = b_var t.
  Proof. destruct t. cbn. auto. Qed.
  Lemma vfit_agrees fuel : agrees fuel.
  Proof.
    induction fuel as [|fuel IH]; intros h node vign p NI R; [reflexivity|].
    assert (NI' := NI). destruct NI' as (HH & HI & HM & HP). assert (HP' : qsum (b_mu node) <> 0) by (intro Z; rewrite Z in HP; qlra).
    destruct (erase_fields node) as (EM & EC & ECl & EV & EVr).
    unfold vfit_at, bfit_at. cbn [vfit bfit]. rewrite EM, EC, ECl, EV, EVr.
    destruct (@max_split_ok cfg psort X y cats Hsort Hnames Hlen Hy Hcats p h (b_mu node) (b_ignored node) HH HM HI HP') as (h1 & best & E & HH1 & L1 & BO).
    assert (E' := E). unfold max_split in E'. unfold vmax_split.
    destruct (@partitions_ok cfg psort X y cats Hsort Hnames Hlen Hy Hcats p) as (ps & EP & Hps). fold vars XM in EP, E', E. rewrite EP in E'. fold vars XM. rewrite EP. cbn [bind] in E' |- *.
    assert (FR := @fold_rep (List.length h) (b_mu node) (b_ignored node) XM y ps h vign None None R I (le_n _) HI).
    destruct (foldM (vscore_partition XM y (b_mu node)) (vign, None) ps) as [[vign1 w]|e] eqn:EV1; [|congruence].
    destruct FR as (h1' & best' & E1 & R1 & B1 & _ & F1). assert (Q : h1' = h1 /\ best' = best) by (split; congruence). destruct Q as (-> & ->).
    assert (ST := @fold_settled (b_mu node) XM y ps vign None vign1 w (@rep_lens h _ _ HH R) (fun f l r m => @part_sums p ps f l r m EP) EV1). destruct ST as (_ & ST).
    assert (QT : forall f A, dget f vign1 = Some A -> quiet p f A).
    { intros f A EA ps0 l r m E0 I0 M0. rewrite EP in E0. injection E0 as <-. exact (ST f l r A m I0 EA M0). }
    assert (F1' : frame h h1 p (b_ignored node)).
    { intros b Lb QB. apply F1; [assumption|]. intros f l r m Ip Ef M. exact (QB f Ef ps l r m EP Ip M). }
    rewrite E. cbn [bind]. rewrite <- (@best_rep_gain _ _ _ _ _ B1).
    destruct (stop_met cfg (best_gain best) (masked (b_mu node) y) (bplen p)) eqn:SM.
    { destruct (get_class_value (b_mu node) y) as [cv|e]; cbn [bind]; [|reflexivity]. exists h1. eexists. split; [reflexivity|]. split; [reflexivity|]. split; assumption. }
    destruct best as [s|], w as [w|]; cbn [best_rep] in B1; try contradiction.
    2: { destruct (dget ""%string (f_positions vars)); reflexivity. }
    destruct BO as (_ & (a & v & g1 & g2 & (Hv & N1 & N2 & Pm & C) & Eq) & M1 & M2 & A1 & A2). injection Eq as Ea El Er.
    assert (I1 : incl g1 (available vars p a)) by (intros x Hx; apply (Permutation_in _ Pm); apply in_or_app; left; assumption).
    assert (I2 : incl g2 (available vars p a)) by (intros x Hx; apply (Permutation_in _ Pm); apply in_or_app; right; assumption).
    destruct B1 as (W1 & W2 & W3 & W4 & W5 & W6 & W7). rewrite <- W1, <- W5, <- W6, <- W3, <- W4. rewrite Ea in W7 |- *. rewrite El, Er. fold vars.
    change (nth_error vars a = Some v) in Hv. rewrite (positions_get vars _ ND Hv). cbn [ret_opt bind]. rewrite Hv. cbn [ret_opt bind]. cbv zeta.
    assert (NI1 : node_inv y h1 node) by (split; [assumption|]; split; [exact (@rep_ign_ok _ _ _ R1)|]; split; assumption).
    assert (GL := @grow_agrees fuel p node h1 vign1 a v g1 (s_lmu s) (s_lign s) (v_lmarks w) IH NI1 R1 QT Hv I1 M1 A1).
    match type of GL with ?P -> _ => assert (CL : P) by (destruct (dget (fv_name v) (b_ignored node)); tauto) end. specialize (GL CL).
    change (match (do l <- vgrow_at fuel p (b_mu node) vign1 a v g1 (s_lmu s) (v_lmarks w); do r <- vgrow_at fuel p (b_mu node) vign1 a v g2 (s_rmu s) (v_rmarks w); Ok (BTree false (map erase (b_children node) ++ [l; r]) (b_class node) (bplen p) (b_value node) (b_var node) (b_mu node) [])) with
      | Ok t' => exists h' t, (do hl <- grow_at cfg psort X y cats fuel p node a v g1 (s_lmu s) (s_lign s) h1; do hr <- grow_at cfg psort X y cats fuel p node a v g2 (s_rmu s) (s_rign s) (fst hl); Ok (fst hr, BTree false (b_children node ++ [snd hl; snd hr]) (b_class node) (bplen p) (b_value node) (b_var node) (b_mu node) (b_ignored node))) = Ok (h', t) /\ erase t = t' /\ (List.length h <= List.length h')%nat /\ frame h h' p (b_ignored node)
      | Err e => (do hl <- grow_at cfg psort X y cats fuel p node a v g1 (s_lmu s) (s_lign s) h1; do hr <- grow_at cfg psort X y cats fuel p node a v g2 (s_rmu s) (s_rign s) (fst hl); Ok (fst hr, BTree false (b_children node ++ [snd hl; snd hr]) (b_class node) (bplen p) (b_value node) (b_var node) (b_mu node) (b_ignored node))) = Err e end).
    match type of GL with match ?t1 with Ok _ => _ | Err _ => _ end => destruct t1 as [tl|e] end; [|rewrite GL; reflexivity].
    destruct GL as (h3 & cl & EL & ETl & HH3 & L3 & F3). rewrite EL. cbn [bind fst snd].
    assert (KI : forall f b, dget f (b_ignored node) = Some b -> hread h3 b = hread h1 b).
    { intros f b Ef. apply F3; [exact (proj1 (rep_some f R1 Ef))|]. intros N0 ->. rewrite N0 in W7. destruct W7 as (_ & _ & _ & K & _). exact (K f Ef). }
    assert (R3 : rep h3 (b_ignored node) vign1).
    { destruct R1 as (R1 & D1). split; [|exact D1]. intro f. specialize (R1 f). destruct (dget f (b_ignored node)) as [b|] eqn:Ef; [|assumption]. destruct (dget f vign1) as [A|]; [|assumption]. destruct R1 as (Lb & <-). split; [lia|]. exact (KI f b Ef). }
    assert (NI3 : node_inv y h3 node) by (split; [assumption|]; split; [exact (@rep_ign_ok _ _ _ R3)|]; split; assumption).
    assert (GR := @grow_agrees fuel p node h3 vign1 a v g2 (s_rmu s) (s_rign s) (v_rmarks w) IH NI3 R3 QT Hv I2 M2 (Nat.lt_le_trans _ _ _ A2 L3)).
    match type of GR with ?P -> _ => assert (CR : P) end.
    { destruct (dget (fv_name v) (b_ignored node)) eqn:Ef; [tauto|]. destruct W7 as (K1 & K2 & K3 & K4 & K5 & K6 & K7). split; [assumption|]. rewrite F3; [assumption|assumption|]. intros _ Q. apply K1. symmetry. exact Q. }
    specialize (GR CR). match type of GR with match ?t1 with Ok _ => _ | Err _ => _ end => destruct t1 as [tr|e] end; [|rewrite GR; reflexivity].
    destruct GR as (h4 & cr & ER & ETr & HH4 & L4 & F4). rewrite ER. cbn [bind fst snd]. exists h4. eexists. split; [reflexivity|]. split; [|split; [lia|]].
    - cbn [erase]. rewrite map_app. cbn [map]. rewrite ETl, ETr. reflexivity.
    - intros b Lb QB. rewrite F4, F3; [apply F1'; assumption|lia|intros N0 ->|lia|intros N0 ->]; rewrite N0 in W7; lia.
  Qed.
End Private.
