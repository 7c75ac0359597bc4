(** * Proofs about rules (C16-C22) *)
From Verif Require Import Prelude M_Fuzzy M_Rule S_Rule P_FuzzySet P_FuzzyVar.
Set Implicit Arguments.
Open Scope Qc_scope.

(** ** accumulation in a defaultdict *)
Definition accum (l : list (Z * Qc)) : dict Z Qc := fold_left (fun d p => dadd (fst p) (snd p) d) l [].
Definition total (l : list (Z * Qc)) (c : Z) : Qc := qsum (map snd (filter (fun p => Z.eqb (fst p) c) l)).

Lemma total_cons k x l c : total ((k, x) :: l) c = (if Z.eqb k c then x else 0) + total l c.
Proof. unfold total. cbn [filter fst]. destruct (Z.eqb k c); cbn [map snd]; rewrite ?qsum_cons; ring. Qed.
Lemma total_app l1 l2 c : total (l1 ++ l2) c = total l1 c + total l2 c.
Proof. unfold total. rewrite filter_app, map_app, qsum_app. reflexivity. Qed.
Lemma dadd_get (k : Z) x d c : dget c (dadd k x d) = if eqb c k then Some ((match dget k d with Some y => y | None => 0 end) + x) else dget c d.
Proof. unfold dadd. apply dset_get. Qed.
Lemma accum_gen (l : list (Z * Qc)) : forall d,
  NoDup (dkeys d) ->
  let d' := fold_left (fun d p => dadd (fst p) (snd p) d) l d in
  NoDup (dkeys d') /\ (forall c, In c (dkeys d') <-> In c (dkeys d) \/ In c (map fst l)) /\
  (forall c, match dget c d' with Some y => y | None => 0 end = (match dget c d with Some y => y | None => 0 end) + total l c).
Proof.
  induction l as [|[k x] l IH]; intros d ND; cbn [fold_left fst snd].
  - split; [assumption|]. split; [intro; simpl; tauto|]. intro c. unfold total; simpl. unfold qsum; simpl. ring.
  - assert (ND' : NoDup (dkeys (dadd k x d))) by (unfold dadd; apply dset_nodup; assumption).
    destruct (IH (dadd k x d) ND') as [A [B C]]. cbn [fst snd]. split; [assumption|]. split.
    + intro c. rewrite B. unfold dadd. rewrite dset_keys_In. cbn [map fst In]. intuition.
    + intro c. etransitivity; [exact (C c)|]. rewrite total_cons, dadd_get. unfold eqb. destruct (eq_dec c k) as [->|N].
      * rewrite Z.eqb_refl. ring.
      * destruct (Z.eqb_spec k c) as [->|]; [congruence|]. ring.
Qed.
Lemma accum_spec l : NoDup (dkeys (accum l)) /\ (forall c, In c (dkeys (accum l)) <-> In c (map fst l)) /\
  (forall c x, dget c (accum l) = Some x -> x = total l c).
Proof.
  destruct (@accum_gen l [] (NoDup_nil _)) as [A [B C]]. split; [exact A|]. split.
  - intro c. unfold accum. rewrite B. simpl. tauto.
  - intros c x E. specialize (C c). unfold accum in E. rewrite E in C. rewrite C. simpl. ring.
Qed.
(** keys appear in the order of first occurrence *)
Lemma accum_order_gen (l : list (Z * Qc)) : forall d, exists ks, dkeys (fold_left (fun d p => dadd (fst p) (snd p) d) l d) = dkeys d ++ ks.
Proof.
  induction l as [|[k x] l IH]; intro d; cbn [fold_left fst snd]; [exists []; rewrite app_nil_r; reflexivity|].
  destruct (IH (dadd k x d)) as [ks ->]. unfold dadd. rewrite dset_keys.
  match goal with |- context [if ?b then _ else _] => destruct b end; [eauto|]. rewrite <- app_assoc. eauto.
Qed.
Lemma accum_prefix l1 l2 : exists ks, dkeys (accum (l1 ++ l2)) = dkeys (accum l1) ++ ks.
Proof. unfold accum. rewrite fold_left_app. apply accum_order_gen. Qed.
Lemma accum_entry l c x : In (c, x) (accum l) -> x = total l c.
Proof.
  intro H. destruct (accum_spec l) as [A [_ C]]. apply C. apply dget_nodup; assumption.
Qed.

Lemma dict_argmax_accum l c : dict_argmax (accum l) = Ok c ->
  In c (map fst l) /\ (forall k, In k (map fst l) -> total l k <= total l c) /\
  (exists l1 x l2, l = l1 ++ (c, x) :: l2 /\ forall k, In k (map fst l1) -> total l k < total l c).
Proof.
  unfold dict_argmax. destruct (max_by _ (accum l)) as [[c' x]|] eqn:E; cbn; [|discriminate].
  intro H. injection H as ->.
  apply (@max_by_spec (Z * Qc) snd) in E. destruct E as [Hin [Hmax [d1 [d2 [Ed Fd]]]]].
  destruct (accum_spec l) as [ND [K T]].
  assert (Ht : x = total l c) by (apply accum_entry; assumption).
  assert (Hc : In c (map fst l)) by (apply K; apply in_map_iff; exists (c, x); auto).
  split; [assumption|]. split.
  - intros k Hk. apply K in Hk. apply in_map_iff in Hk. destruct Hk as [[k' y] [Ek Hk]]. cbn in Ek. subst k'.
    rewrite <- Ht. rewrite <- (accum_entry _ _ _ Hk). apply (Hmax (k, y) Hk).
  - (* split l at the first occurrence of c *)
    assert (exists l1 y l2, l = l1 ++ (c, y) :: l2 /\ ~ In c (map fst l1)) as [l1 [y [l2 [El Nl]]]].
    { clear - Hc. induction l as [|[k z] l IH]; [destruct Hc|]. destruct (Z.eq_dec k c) as [->|N].
      - exists [], z, l. split; [reflexivity|]. intros [].
      - destruct Hc as [Hc|Hc]; [cbn in Hc; congruence|]. destruct (IH Hc) as [l1 [y [l2 [-> Nl]]]].
        exists ((k, z) :: l1), y, l2. split; [reflexivity|]. intros [E|E]; [cbn in E; congruence|contradiction]. }
    exists l1, y, l2. split; [assumption|]. intros k Hk.
    destruct (accum_spec l1) as [_ [K1 _]]. apply K1 in Hk.
    destruct (accum_prefix l1 ((c, y) :: l2)) as [ks Eks]. rewrite <- El in Eks.
    assert (Nc : ~ In c (dkeys (accum l1))) by (rewrite K1; assumption).
    assert (Ed' : dkeys (accum l) = dkeys d1 ++ c :: dkeys d2) by (rewrite Ed; unfold dkeys; rewrite map_app; reflexivity).
    assert (In k (dkeys d1)).
    { rewrite Eks in Ed'. clear - Ed' Nc Hk. revert Ed' Hk Nc. generalize (dkeys (accum l1)) as a. generalize (dkeys d1) as b.
      induction b as [|z b IH]; intros a E Hk Nc.
      - destruct a as [|w a]; [destruct Hk|]. cbn in E. injection E as -> _. exfalso. apply Nc. left; reflexivity.
      - destruct a as [|w a]; [destruct Hk|]. cbn in E. injection E as -> E. destruct Hk as [->|Hk]; [left; reflexivity|].
        right. apply (IH a); auto. intro; apply Nc; right; assumption. }
    apply in_map_iff in H. destruct H as [[k' z] [Ek Hz]]. cbn in Ek. subst k'.
    rewrite Forall_forall in Fd. specialize (Fd _ Hz). cbn in Fd. rewrite <- Ht.
    rewrite <- (@accum_entry l k z); [assumption|]. rewrite Ed. apply in_or_app. left. assumption.
Qed.
Lemma dict_argmax_ok l : l <> [] -> exists c, dict_argmax (accum l) = Ok c.
Proof.
  intro N. unfold dict_argmax. destruct (max_by _ (accum l)) as [kv|] eqn:E; [cbn; eauto|].
  apply (@max_by_None (Z*Qc) snd) in E. destruct (accum_spec l) as [_ [K _]]. destruct l as [|[k x] l]; [congruence|].
  exfalso. assert (In k (dkeys (accum ((k, x) :: l)))) by (apply K; left; reflexivity). rewrite E in H. destruct H.
Qed.
(** a strict winner is determined by the totals alone *)
Lemma dict_argmax_unique l c : In c (map fst l) -> (forall k, In k (map fst l) -> k <> c -> total l k < total l c) ->
  dict_argmax (accum l) = Ok c.
Proof.
  intros Hc H. destruct (@dict_argmax_ok l) as [c' E]; [destruct l; [destruct Hc|discriminate]|].
  rewrite E. f_equal. apply dict_argmax_accum in E. destruct E as [A [B _]].
  destruct (Z.eq_dec c' c) as [|N]; [assumption|]. specialize (H c' A N). specialize (B c Hc). qlra.
Qed.

(** ** matching *)
Lemma degree_knows m f v d : degree m f v = Ok d <-> knows m f v d.
Proof.
  unfold degree, knows. destruct (dget f m) as [row|]; cbn.
  - destruct (dget v row) as [x|] eqn:E; cbn.
    + split; [intro H; injection H as ->; eauto|]. intros [r [E1 E2]]. congruence.
    + split; [discriminate|]. intros [r [E1 E2]]. congruence.
  - split; [discriminate|]. intros [r [E1 E2]]. congruence.
Qed.
Lemma degree_err m f v e : degree m f v = Err e -> e = KeyError.
Proof.
  unfold degree. destruct (dget f m) as [row|]; cbn; [|congruence]. destruct (dget v row); cbn; congruence.
Qed.
Lemma mapM_err A B (f : A -> res B) l e : mapM f l = Err e -> exists x, In x l /\ f x = Err e.
Proof.
  induction l as [|x l IH]; cbn; [discriminate|]. destruct (f x) as [y|e'] eqn:E; cbn.
  - destruct (mapM f l) as [ys|]; cbn; [discriminate|]. intro H. injection H as ->. destruct IH as [z [A1 A2]]; [reflexivity|]. eauto.
  - intro H. injection H as ->. eauto.
Qed.
Lemma mapM_some_err A B (f : A -> res B) l x e : In x l -> f x = Err e -> exists e', mapM f l = Err e'.
Proof.
  intros Hx E. destruct (mapM f l) as [ys|e'] eqn:M; [|eauto]. apply mapM_ok in M. exfalso.
  revert Hx. induction M as [|a b l' ys' Hab M IH]; [intros []|]. intros [->|Hx]; [congruence|auto].
Qed.

Lemma C16_min m (r : rule string) : r_ant r <> [] ->
  (forall f v, In (f, v) (r_ant r) -> exists d, knows m f v d) ->
  exists x, matching m r = Ok x /\
    (exists f v, In (f, v) (r_ant r) /\ knows m f v x) /\
    (forall f v d, In (f, v) (r_ant r) -> knows m f v d -> x <= d).
Proof.
  intros NE K. unfold matching, matching_tn.
  destruct (@mapM_total _ _ (fun fv => degree m (fst fv) (snd fv)) (r_ant r)) as [ds E].
  { intros [f v] H. destruct (K f v H) as [d Hd]. exists d. apply degree_knows. assumption. }
  rewrite E. cbn [bind]. apply mapM_ok in E.
  assert (ND : ds <> []) by (intros ->; inversion E; congruence).
  destruct (qminimum_ok ND) as [x Hx]. rewrite Hx. cbn. exists x. split; [reflexivity|].
  apply qminimum_spec in Hx. destruct Hx as [X1 X2]. split.
  - clear - E X1. induction E as [|[f v] d ant ds' Hd E IH]; [destruct X1|]. destruct X1 as [->|X1].
    + exists f, v. split; [left; reflexivity|]. apply degree_knows. assumption.
    + destruct (IH X1) as [f' [v' [A B]]]. exists f', v'. split; [right; assumption|assumption].
  - intros f v d Hin Hk. apply X2. apply degree_knows in Hk. clear - E Hin Hk.
    induction E as [|[f' v'] d' ant ds' Hd E IH]; [destruct Hin|]. destruct Hin as [H|H].
    + injection H as -> ->. cbn in Hd. left. congruence.
    + right. auto.
Qed.
Lemma C16_unknown m (r : rule string) f v : In (f, v) (r_ant r) -> (forall d, ~ knows m f v d) -> matching m r = Ok 0.
Proof.
  intros H N. unfold matching, matching_tn.
  assert (E : degree m f v = Err KeyError).
  { destruct (degree m f v) as [d|e] eqn:E; [|apply degree_err in E; congruence]. apply degree_knows in E. destruct (N d E). }
  destruct (@mapM_some_err _ _ (fun fv => degree m (fst fv) (snd fv)) (r_ant r) (f, v) KeyError H E) as [e' M].
  rewrite M. cbn. apply mapM_err in M. destruct M as [[f' v'] [_ M]]. apply degree_err in M. subst. reflexivity.
Qed.
Lemma C16_empty m c w : matching m (mkR [] c w) = Err ValueError.
Proof. reflexivity. Qed.
Lemma knows_dec m f v : (exists d, knows m f v d) \/ (forall d, ~ knows m f v d).
Proof.
  destruct (degree m f v) as [d|] eqn:E; [left; exists d; apply degree_knows; assumption|right].
  intros d K. apply degree_knows in K. congruence.
Qed.
Lemma all_known_dec m (ant : list (string * string)) :
  (forall f v, In (f, v) ant -> exists d, knows m f v d) \/ (exists f v, In (f, v) ant /\ forall d, ~ knows m f v d).
Proof.
  induction ant as [|[f v] ant IH]; [left; intros f v []|].
  destruct (knows_dec m f v) as [K|K]; [|right; exists f, v; split; [left; reflexivity|assumption]].
  destruct IH as [IH|[f' [v' [H1 H2]]]]; [left|right; exists f', v'; split; [right|]; assumption].
  intros f' v' [E|H]; [injection E as <- <-; assumption|auto].
Qed.
(** matching only depends on the set of literals *)
Lemma C16_set m (r r' : rule string) : (forall l, In l (r_ant r) <-> In l (r_ant r')) -> matching m r = matching m r'.
Proof.
  intro S. destruct (r_ant r) as [|l0 ant] eqn:Er.
  - destruct (r_ant r') as [|l1 ant'] eqn:Er'; [|exfalso; apply (S l1); left; reflexivity].
    unfold matching, matching_tn. rewrite Er, Er'. reflexivity.
  - assert (N1 : r_ant r <> []) by (rewrite Er; discriminate).
    assert (N2 : r_ant r' <> []) by (intro E; rewrite E in S; apply (S l0); left; reflexivity).
    rewrite <- Er in S. destruct (all_known_dec m (r_ant r)) as [K|[f [v [H1 H2]]]].
    + destruct (@C16_min m r N1 K) as [x [-> [[f [v [A B]]] C]]].
      destruct (@C16_min m r' N2) as [y [-> [[f' [v' [A' B']]] C']]].
      { intros. apply K, S. assumption. }
      f_equal. apply Qcle_antisym; [apply (C f' v' y); [apply S|]; assumption|apply (C' f v x); [apply S|]; assumption].
    + rewrite (@C16_unknown m r f v H1 H2). symmetry. eapply C16_unknown; [apply S|]; eassumption.
Qed.
Lemma matching_01 m r x : (forall f v d, knows m f v d -> 0 <= d /\ d <= 1) -> matching m r = Ok x -> 0 <= x /\ x <= 1.
Proof.
  intros H E. destruct (all_known_dec m (r_ant r)) as [K|[f [v [H1 H2]]]].
  - destruct (r_ant r) as [|l ant] eqn:Er.
    + unfold matching, matching_tn in E. rewrite Er in E. discriminate.
    + destruct (@C16_min m r) as [y [Ey [[f [v [A B]]] C]]]; [rewrite Er; discriminate|rewrite Er; assumption|].
      rewrite E in Ey. injection Ey as <-. apply (H f v). assumption.
  - rewrite (@C16_unknown m r f v H1 H2) in E. injection E as <-. split; qlra.
Qed.

(** ** C17: several sets per feature *)
Lemma sum_degrees_gen m f vs : forall acc s, foldM (fun acc v => do d <- degree m f v; Ok (acc + d)) acc vs = Ok s <->
  exists t, group_degree m f vs t /\ s = acc + t.
Proof.
  induction vs as [|v vs IH]; intros acc s; cbn [foldM].
  - split.
    + intro H. injection H as <-. exists 0. split; [constructor|ring].
    + intros [t [G ->]]. inversion G; subst. f_equal. ring.
  - destruct (degree m f v) as [d|e] eqn:E; cbn [bind].
    + rewrite IH. apply degree_knows in E. split.
      * intros [t [G ->]]. exists (d + t). split; [constructor; assumption|ring].
      * intros [t [G ->]]. inversion G as [|? ? d' t' K G']; subst. exists t'. split; [assumption|].
        assert (d' = d) by (destruct K as [r1 [K1 K2]]; destruct E as [r2 [E1 E2]]; congruence). subst. ring.
    + split; [discriminate|]. intros [t [G _]]. inversion G as [|? ? d' t' K G']; subst.
      apply degree_knows in K. congruence.
Qed.
Lemma sum_degrees_iff m f vs s : sum_degrees m f vs = Ok s <-> group_degree m f vs s.
Proof.
  unfold sum_degrees. rewrite sum_degrees_gen. split.
  - intros [t [G ->]]. replace (0 + t) with t by ring. assumption.
  - intro G. exists s. split; [assumption|ring].
Qed.
Lemma sum_degrees_err m f vs e : sum_degrees m f vs = Err e -> e = KeyError.
Proof.
  unfold sum_degrees. generalize (0:Qc). induction vs as [|v vs IH]; intros acc; cbn [foldM]; [discriminate|].
  destruct (degree m f v) eqn:E; cbn [bind]; [apply IH|]. intro H. injection H as <-. eapply degree_err; eauto.
Qed.
Lemma group_known m f vs : (forall v, In v vs -> exists d, knows m f v d) -> exists s, group_degree m f vs s.
Proof.
  induction vs as [|v vs IH]; intro H; [exists 0; constructor|].
  destruct (H v) as [d K]; [left; reflexivity|]. destruct IH as [s G]; [intros; apply H; right; assumption|].
  exists (d + s). constructor; assumption.
Qed.
Lemma C17_min m (r : rule (list string)) : r_ant r <> [] ->
  (forall f vs v, In (f, vs) (r_ant r) -> In v vs -> exists d, knows m f v d) ->
  exists x, matching_multi m r = Ok x /\
    (exists f vs, In (f, vs) (r_ant r) /\ group_degree m f vs x) /\
    (forall f vs s, In (f, vs) (r_ant r) -> group_degree m f vs s -> x <= s).
Proof.
  intros NE K. unfold matching_multi, matching_multi_tn.
  destruct (@mapM_total _ _ (fun fv => sum_degrees m (fst fv) (snd fv)) (r_ant r)) as [ds E].
  { intros [f vs] H. destruct (@group_known m f vs) as [s G]; [intros; eapply K; eauto|]. exists s. apply sum_degrees_iff. assumption. }
  rewrite E. cbn [bind]. apply mapM_ok in E.
  assert (ND : ds <> []) by (intros ->; inversion E; congruence).
  destruct (qminimum_ok ND) as [x Hx]. rewrite Hx. cbn. exists x. split; [reflexivity|].
  apply qminimum_spec in Hx. destruct Hx as [X1 X2]. split.
  - clear - E X1. induction E as [|[f v] d ant ds' Hd E IH]; [destruct X1|]. destruct X1 as [->|X1].
    + exists f, v. split; [left; reflexivity|]. apply sum_degrees_iff. assumption.
    + destruct (IH X1) as [f' [v' [A B]]]. exists f', v'. split; [right; assumption|assumption].
  - intros f v d Hin Hk. apply X2. apply sum_degrees_iff in Hk. clear - E Hin Hk.
    induction E as [|[f' v'] d' ant ds' Hd E IH]; [destruct Hin|]. destruct Hin as [H|H].
    + injection H as -> ->. cbn [fst snd] in Hd. left. congruence.
    + right. auto.
Qed.
Lemma C17_unknown m (r : rule (list string)) f vs v : In (f, vs) (r_ant r) -> In v vs -> (forall d, ~ knows m f v d) ->
  matching_multi m r = Ok 0.
Proof.
  intros H Hv N. unfold matching_multi, matching_multi_tn.
  assert (E : sum_degrees m f vs = Err KeyError).
  { destruct (sum_degrees m f vs) as [d|e] eqn:E; [|apply sum_degrees_err in E; congruence].
    apply sum_degrees_iff in E. exfalso. clear - E Hv N. induction E as [|w ws d s K G IH]; [destruct Hv|].
    destruct Hv as [->|Hv]; [exact (N d K)|auto]. }
  destruct (@mapM_some_err _ _ (fun fv => sum_degrees m (fst fv) (snd fv)) (r_ant r) (f, vs) KeyError H E) as [e' M].
  rewrite M. cbn. apply mapM_err in M. destruct M as [[f' v'] [_ M]]. apply sum_degrees_err in M. subst. reflexivity.
Qed.
Lemma knows_fun m f v d d' : knows m f v d -> knows m f v d' -> d = d'.
Proof. intros [r [A B]] [r' [A' B']]. congruence. Qed.
Lemma group_fun m f vs s s' : group_degree m f vs s -> group_degree m f vs s' -> s = s'.
Proof. intros G G'. apply sum_degrees_iff in G. apply sum_degrees_iff in G'. congruence. Qed.
Lemma group_sum_perm m f vs vs' s : Permutation vs vs' -> group_degree m f vs s -> group_degree m f vs' s.
Proof.
  intro P. revert s. induction P as [|v l l' P IH|v w l|l1 l2 l3 P1 IH1 P2 IH2]; intros s G.
  - assumption.
  - inversion G; subst. constructor; auto.
  - inversion G as [|? ? d1 s1 K1 G1]; subst. inversion G1 as [|? ? d2 s2 K2 G2]; subst.
    replace (d1 + (d2 + s2)) with (d2 + (d1 + s2)) by ring. repeat constructor; assumption.
  - auto.
Qed.
Lemma group_app m f vs ws s t : group_degree m f vs s -> group_degree m f ws t -> group_degree m f (vs ++ ws) (s + t).
Proof.
  intros G H. induction G as [|v vs d s K G IH]; cbn [app].
  - replace (0 + t) with t by ring. assumption.
  - replace (d + s + t) with (d + (s + t)) by ring. constructor; assumption.
Qed.
Lemma group_nonneg m f vs s : (forall v d, knows m f v d -> 0 <= d) -> group_degree m f vs s -> 0 <= s.
Proof. intros H G. induction G as [|v vs d s K G IH]; [qlra|]. specialize (H v d K). qlra. Qed.
(** distinct sets of a feature whose degrees sum to one *)
Lemma group_le_row (row : dict string Qc) : (forall v d, In (v, d) row -> 0 <= d) ->
  forall vs s m f, NoDup vs -> dget f m = Some row -> group_degree m f vs s -> s <= qsum (map snd row).
Proof.
  intros HP vs s m f ND E G. revert ND.
  assert (Gen : forall row' : dict string Qc, (forall v d, In (v, d) row' -> 0 <= d) -> forall vs s, NoDup vs ->
    (exists ds, s = qsum ds /\ Forall2 (fun v d => dget v row' = Some d) vs ds) -> s <= qsum (map snd row')).
  { clear. induction row' as [|[k x] row' IH]; intros HP vs s ND [ds [-> F]].
    - destruct F as [|v d vs ds H F]; [cbn; apply Qcle_refl|discriminate].
    - assert (Hx : 0 <= x) by (eapply HP; left; reflexivity).
      cbn [map snd]. rewrite qsum_cons.
      destruct (in_dec string_dec k vs) as [Hk|Hk].
      + apply in_split in Hk. destruct Hk as [l1 [l2 ->]].
        apply Forall2_app_inv_l in F. destruct F as [d1 [d2 [F1 [F2 ->]]]].
        inversion F2 as [|? d ? d2' Hd F2']; subst. rewrite qsum_app, qsum_cons.
        cbn [dget] in Hd. rewrite eqb_refl in Hd. injection Hd as <-.
        assert (NDk : NoDup (l1 ++ l2) /\ ~ In k (l1 ++ l2)) by (split; [eapply NoDup_remove_1; eauto|eapply NoDup_remove_2; eauto]).
        destruct NDk as [ND' Nk].
        assert (L : qsum (d1 ++ d2') <= qsum (map snd row')).
        { apply (IH (fun v d H => HP v d (or_intror H)) (l1 ++ l2)); [assumption|]. exists (d1 ++ d2'). split; [reflexivity|].
          assert (F : Forall2 (fun v d => dget v ((k, x) :: row') = Some d) (l1 ++ l2) (d1 ++ d2')) by (apply Forall2_app; assumption).
          clear - F Nk. induction F as [|v d vs ds H F IHF]; constructor.
          - cbn [dget] in H. unfold eqb in H. destruct (eq_dec v k) as [->|]; [|assumption]. exfalso. apply Nk. left; reflexivity.
          - apply IHF. intro; apply Nk; right; assumption. }
        rewrite qsum_app in L. qlra.
      + assert (L : qsum ds <= qsum (map snd row')); [|qlra].
        apply (IH (fun v d H => HP v d (or_intror H)) vs); [assumption|]. exists ds. split; [reflexivity|].
        clear - F Hk. induction F as [|v d vs ds H F IHF]; constructor.
        * cbn [dget] in H. unfold eqb in H. destruct (eq_dec v k) as [->|]; [|assumption]. exfalso. apply Hk. left; reflexivity.
        * apply IHF. intro; apply Hk; right; assumption. }
  intro ND. apply (Gen row HP vs s ND). clear - G E. induction G as [|v vs d s [r [K1 K2]] G IH].
  - exists []. split; [reflexivity|constructor].
  - destruct IH as [ds [-> F]]. exists (d :: ds). split; [reflexivity|]. constructor; [congruence|assumption].
Qed.
Lemma C17_unit m (r : rule (list string)) x :
  (forall f row, dget f m = Some row -> (forall v d, In (v, d) row -> 0 <= d) /\ qsum (map snd row) = 1) ->
  (forall f vs, In (f, vs) (r_ant r) -> NoDup vs) ->
  matching_multi m r = Ok x -> 0 <= x /\ x <= 1.
Proof.
  intros HS ND E.
  assert (Hn : forall f v d, knows m f v d -> 0 <= d).
  { intros f v d [row [A B]]. destruct (HS f row A) as [P _]. eapply P. apply dget_In. eassumption. }
  destruct (r_ant r) as [|[f0 vs0] ant] eqn:Er.
  { unfold matching_multi, matching_multi_tn in E. rewrite Er in E. discriminate. }
  assert (Dec : (forall f vs v, In (f, vs) (r_ant r) -> In v vs -> exists d, knows m f v d) \/
                exists f vs v, In (f, vs) (r_ant r) /\ In v vs /\ forall d, ~ knows m f v d).
  { clear. induction (r_ant r) as [|[f vs] l IH]; [left; intros f vs v []|].
    destruct IH as [IH|[f' [vs' [v' [A B]]]]]; [|right; exists f', vs', v'; split; [right|]; assumption].
    assert (D : (forall v, In v vs -> exists d, knows m f v d) \/ exists v, In v vs /\ forall d, ~ knows m f v d).
    { clear. induction vs as [|v vs IH]; [left; intros v []|]. destruct (knows_dec m f v) as [K|K].
      - destruct IH as [IH|[w [A B]]]; [left|right; exists w; split; [right|]; assumption]. intros w [->|H]; auto.
      - right. exists v. split; [left; reflexivity|assumption]. }
    destruct D as [D|[v [A B]]]; [left|right; exists f, vs, v; split; [left; reflexivity|auto]].
    intros f' vs' v' [H|H] Hv; [injection H as <- <-; auto|eauto]. }
  destruct Dec as [K|[f [vs [v [A [B C]]]]]].
  - destruct (@C17_min m r) as [y [Ey [[f [vs [A B]]] C]]]; [rewrite Er; discriminate|assumption|].
    rewrite E in Ey. injection Ey as <-. split; [eapply group_nonneg; [|exact B]; intros; eapply Hn; eassumption|].
    destruct vs as [|v vs].
    + inversion B; subst. qlra.
    + assert (G := B). inversion G as [|? ? d s [row [K1 K2]] G']; subst.
      destruct (HS f row K1) as [P S]. rewrite <- S.
      apply (@group_le_row row P (v :: vs) _ m f); [rewrite Er in A; apply (ND f), A|assumption|assumption].
  - rewrite (@C17_unknown m r f vs v A B C) in E. injection E as <-. split; qlra.
Qed.
Lemma C17_mono m f vs v l1 l2 c w x y :
  (forall f v d, knows m f v d -> 0 <= d) ->
  matching_multi m (mkR (l1 ++ (f, vs) :: l2) c w) = Ok x ->
  matching_multi m (mkR (l1 ++ (f, v :: vs) :: l2) c w) = Ok y ->
  (exists d, knows m f v d) -> x <= y.
Proof.
  intros Hn E1 E2 Kv.
  assert (Dec : (forall g ws u, In (g, ws) (l1 ++ (f, vs) :: l2) -> In u ws -> exists d, knows m g u d) \/
                exists g ws u, In (g, ws) (l1 ++ (f, vs) :: l2) /\ In u ws /\ forall d, ~ knows m g u d).
  { clear. induction (l1 ++ (f, vs) :: l2) as [|[g ws] l IH]; [left; intros g ws u []|].
    destruct IH as [IH|[f' [vs' [v' [A B]]]]]; [|right; exists f', vs', v'; split; [right|]; assumption].
    assert (D : (forall v, In v ws -> exists d, knows m g v d) \/ exists v, In v ws /\ forall d, ~ knows m g v d).
    { clear. induction ws as [|v vs IH]; [left; intros v []|]. destruct (knows_dec m g v) as [K|K].
      - destruct IH as [IH|[w [A B]]]; [left|right; exists w; split; [right|]; assumption]. intros w [->|H]; auto.
      - right. exists v. split; [left; reflexivity|assumption]. }
    destruct D as [D|[v' [A B]]]; [left|right; exists g, ws, v'; split; [left; reflexivity|auto]].
    intros f' vs' u [H|H] Hv; [injection H as <- <-; auto|eauto]. }
  destruct Dec as [K|[g [ws [u [A [B C]]]]]].
  - destruct (@C17_min m (mkR (l1 ++ (f, vs) :: l2) c w)) as [x' [Ex [_ Cx]]]; [cbn; destruct l1; discriminate|assumption|].
    rewrite E1 in Ex. injection Ex as <-.
    destruct (@C17_min m (mkR (l1 ++ (f, v :: vs) :: l2) c w)) as [y' [Ey [[g [ws [A B]]] _]]]; [cbn; destruct l1; discriminate| |].
    { cbn. intros g ws u Hin Hu. apply in_app_or in Hin. destruct Hin as [Hin|[Hin|Hin]].
      - apply (K g ws u); [apply in_or_app; left; assumption|assumption].
      - injection Hin as <- <-. destruct Hu as [<-|Hu]; [assumption|]. apply (K f vs u); [apply in_or_app; right; left; reflexivity|assumption].
      - apply (K g ws u); [apply in_or_app; right; right; assumption|assumption]. }
    rewrite E2 in Ey. injection Ey as <-. cbn in A. apply in_app_or in A. destruct A as [A|[A|A]].
    + apply (Cx g ws y); [cbn; apply in_or_app; left; assumption|assumption].
    + injection A as <- <-. inversion B as [|? ? d s Kd G]; subst. assert (0 <= d) by (eapply Hn; eauto).
      assert (x <= s) by (apply (Cx f vs s); [cbn; apply in_or_app; right; left; reflexivity|assumption]). qlra.
    + apply (Cx g ws y); [cbn; apply in_or_app; right; right; assumption|assumption].
  - rewrite (@C17_unknown m (mkR (l1 ++ (f, vs) :: l2) c w) g ws u A B C) in E1. injection E1 as <-.
    assert (exists ws', In (g, ws') (l1 ++ (f, v :: vs) :: l2) /\ In u ws') as [ws' [A' B']].
    { apply in_app_or in A. destruct A as [A|[A|A]].
      - exists ws. split; [apply in_or_app; left; assumption|assumption].
      - injection A as <- <-. exists (v :: vs). split; [apply in_or_app; right; left; reflexivity|right; assumption].
      - exists ws. split; [apply in_or_app; right; right; assumption|assumption]. }
    rewrite (@C17_unknown m (mkR (l1 ++ (f, v :: vs) :: l2) c w) g ws' u A' B' C) in E2. injection E2 as <-. qlra.
Qed.

(** ** C18: simplify *)
Lemma first_occurrences_snoc l x : first_occurrences (l ++ [x]) =
  if in_dec string_dec x l then first_occurrences l else first_occurrences l ++ [x].
Proof.
  unfold first_occurrences. rewrite rev_app_distr. cbn [rev app nodup].
  destruct (in_dec string_dec x (rev l)) as [H|H]; destruct (in_dec string_dec x l) as [H'|H']; try reflexivity.
  - exfalso. apply H'. apply in_rev. assumption.
  - exfalso. apply H. apply -> in_rev. assumption.
Qed.
Lemma simplify_spec {V} (len : V -> nat) (ant : list (string * V)) :
  dkeys (simplify_ant len ant) = first_occurrences (map fst ant) /\
  NoDup (dkeys (simplify_ant len ant)) /\
  (forall f v, dget f (simplify_ant len ant) = Some v -> first_shortest len ant f v).
Proof.
  induction ant as [|[f v] ant IH] using rev_ind.
  - split; [reflexivity|]. split; [constructor|]. intros f v E. discriminate.
  - destruct IH as [K [ND S]]. unfold simplify_ant in *. rewrite fold_left_app. cbn [fold_left fst snd].
    match type of ND with NoDup (dkeys ?x) => generalize dependent x end. intros d K ND S.
    assert (Kf : In f (dkeys d) <-> In f (map fst ant)).
    { rewrite K. unfold first_occurrences. rewrite <- in_rev, nodup_In, <- in_rev. tauto. }
    assert (New : forall g w, g <> f -> dget g d = Some w -> first_shortest len (ant ++ [(f, v)]) g w).
    { intros g w N E. destruct (S g w E) as [l1 [l2 [-> [A B]]]]. exists l1, (l2 ++ [(f, v)]).
      split; [rewrite <- app_assoc; reflexivity|]. split; [assumption|].
      intros v' H. apply in_app_or in H. destruct H as [H|[H|[]]]; [auto|congruence]. }
    rewrite map_app. cbn [map fst]. rewrite first_occurrences_snoc. destruct (dget f d) as [old|] eqn:E.
    + assert (Hf : In f (map fst ant)) by (apply Kf; eapply dget_Some_key; eauto).
      destruct (in_dec string_dec f (map fst ant)) as [_|N]; [|contradiction].
      destruct (S f old E) as [l1 [l2 [Ea [A B]]]].
      destruct (Nat.ltb_spec (len v) (len old)) as [L|L].
      * split; [|split].
        -- rewrite dset_keys. rewrite (proj2 (memb_In _ f (dkeys d)) (proj2 Kf Hf)). assumption.
        -- apply dset_nodup. assumption.
        -- intros g w Eg. rewrite dset_get in Eg. unfold eqb in Eg. destruct (eq_dec g f) as [->|N]; [|apply New; assumption].
           injection Eg as <-. exists ant, []. split; [reflexivity|]. split; [|intros v' []].
           intros v' H. rewrite Ea in H. apply in_app_or in H. destruct H as [H|[H|H]].
           ++ specialize (A v' H). lia.
           ++ injection H as <-. assumption.
           ++ specialize (B v' H). lia.
      * split; [assumption|]. split; [assumption|]. intros g w Eg.
        destruct (string_dec g f) as [->|N]; [|apply New; assumption].
        rewrite E in Eg. injection Eg as <-. exists l1, (l2 ++ [(f, v)]). subst ant.
        split; [rewrite <- app_assoc; reflexivity|]. split; [assumption|].
        intros v' H. apply in_app_or in H. destruct H as [H|[H|[]]]; [auto|]. injection H as <-. assumption.
    + assert (Hf : ~ In f (map fst ant)) by (rewrite <- Kf; apply dget_None; assumption).
      destruct (in_dec string_dec f (map fst ant)) as [Y|_]; [contradiction|]. split; [|split].
      * rewrite dset_keys. rewrite (proj2 (memb_not_In _ f (dkeys d))); [rewrite K; reflexivity|]. rewrite Kf. assumption.
      * apply dset_nodup. assumption.
      * intros g w Eg. rewrite dset_get in Eg. unfold eqb in Eg. destruct (eq_dec g f) as [->|N]; [|apply New; assumption].
        injection Eg as <-. exists ant, []. split; [reflexivity|]. split; [|intros v' []].
        intros v' H. exfalso. apply Hf. apply in_map_iff. exists (f, v'). auto.
Qed.
Lemma first_shortest_fun {V} (len : V -> nat) ant f (v w : V) :
  first_shortest len ant f v -> first_shortest len ant f w -> v = w.
Proof.
  intros [l1 [l2 [E [A B]]]] [k1 [k2 [E' [A' B']]]]. rewrite E in E'. clear E.
  revert k1 E' A'. induction l1 as [|p l1 IH]; intros k1 E' A'.
  - destruct k1 as [|q k1]; cbn in E'; [congruence|]. injection E' as <- E'.
    assert (len w < len v)%nat by (apply A'; left; reflexivity).
    assert (len v <= len w)%nat; [|lia]. apply B. rewrite E'. apply in_or_app. right. left. reflexivity.
  - destruct k1 as [|q k1]; cbn in E'.
    + injection E' as -> E'. assert (len v < len w)%nat by (apply A; left; reflexivity).
      assert (len w <= len v)%nat; [|lia]. apply B'. rewrite <- E'. apply in_or_app. right. left. reflexivity.
    + injection E' as _ E'. apply (IH (fun v' H => A v' (or_intror H)) k1 E'). intros v' H. apply A'. right. assumption.
Qed.
Lemma dict_ext {V} (d d' : dict string V) : NoDup (dkeys d) -> dkeys d = dkeys d' ->
  (forall k, dget k d = dget k d') -> d = d'.
Proof.
  revert d'. induction d as [|[k v] d IH]; intros [|[k' v'] d'] ND K G; cbn in K; try discriminate; [reflexivity|].
  injection K as <- K. inversion ND as [|? ? Nk ND']; subst.
  assert (v = v') by (specialize (G k); cbn in G; rewrite eqb_refl in G; congruence). subst. f_equal.
  apply IH; [assumption|assumption|]. intro j. specialize (G j). cbn in G. unfold eqb in G. destruct (eq_dec j k) as [->|]; [|assumption].
  transitivity (@None V); [|symmetry]; apply dget_None; [assumption|]. unfold dkeys in *. rewrite <- K. assumption.
Qed.
Lemma first_occurrences_nodup l : NoDup l -> first_occurrences l = l.
Proof.
  intro H. unfold first_occurrences. rewrite nodup_fixed_point; [apply rev_involutive|]. apply NoDup_rev. assumption.
Qed.
Lemma simplify_idem {V} (len : V -> nat) (ant : list (string * V)) :
  simplify_ant len (simplify_ant len ant) = simplify_ant len ant.
Proof.
  destruct (simplify_spec len ant) as [K [ND S]]. remember (simplify_ant len ant) as d eqn:Ed. clear Ed.
  destruct (simplify_spec len d) as [K' [ND' S']]. change (map fst d) with (dkeys d) in K'. rewrite (first_occurrences_nodup ND) in K'.
  apply dict_ext; [assumption|assumption|]. intro k.
  destruct (dget k (simplify_ant len d)) as [v|] eqn:E.
  - destruct (S' k v E) as [l1 [l2 [-> _]]]. symmetry. apply dget_nodup; [assumption|]. apply in_or_app. right. left. reflexivity.
  - symmetry. apply dget_None. apply dget_None in E. rewrite <- K'. assumption.
Qed.
Lemma nodup_dget_In {V} (d : dict string V) k v : NoDup (dkeys d) -> (In (k, v) d <-> dget k d = Some v).
Proof. intro ND. split; [apply dget_nodup; assumption|apply dget_In]. Qed.

Lemma C18_shape {V} (len : V -> nat) (r : rule V) :
  r_cons (simplify len r) = r_cons r /\ r_weight (simplify len r) = r_weight r /\
  map fst (r_ant (simplify len r)) = first_occurrences (map fst (r_ant r)) /\
  (forall f v, In (f, v) (r_ant (simplify len r)) -> first_shortest len (r_ant r) f v) /\
  simplify len (simplify len r) = simplify len r.
Proof.
  destruct (simplify_spec len (r_ant r)) as [K [ND S]]. split; [reflexivity|]. split; [reflexivity|]. split; [exact K|]. split.
  - intros f v H. apply S. apply dget_nodup; assumption.
  - unfold simplify. cbn [r_ant r_cons r_weight]. rewrite simplify_idem. reflexivity.
Qed.
Lemma group_incl_le m f vs ws s t : (forall v d, knows m f v d -> 0 <= d) -> NoDup vs -> incl vs ws ->
  group_degree m f vs s -> group_degree m f ws t -> s <= t.
Proof.
  intros Hn ND I Gs Gt. revert s vs ND I Gs. induction Gt as [|w ws d t K Gt IH]; intros s vs ND I Gs.
  - destruct vs as [|v vs]; [inversion Gs; subst; apply Qcle_refl|]. exfalso. apply (I v). left. reflexivity.
  - destruct (in_dec string_dec w vs) as [Hw|Hw].
    + apply in_split in Hw. destruct Hw as [l1 [l2 ->]].
      assert (Gs' := group_sum_perm (Permutation_sym (Permutation_middle l1 l2 w)) Gs).
      inversion Gs' as [|? ? d' s' K' G'']; subst. rewrite (knows_fun K' K).
      assert (s' <= t); [|qlra]. apply (IH s' (l1 ++ l2)); [eapply NoDup_remove_1; eauto| |assumption].
      intros u Hu. destruct (I u) as [<-|]; [|exfalso; eapply NoDup_remove_2; eauto|assumption].
      apply in_app_or in Hu. apply in_or_app. destruct Hu; [left|right; right]; assumption.
    + assert (s <= t); [|assert (0 <= d) by eauto; qlra]. apply (IH s vs); [assumption| |assumption].
      intros u Hu. destruct (I u Hu) as [<-|]; [contradiction|assumption].
Qed.
Lemma C18_matching m (r : rule (list string)) :
  (forall f v d, knows m f v d -> 0 <= d) ->
  (forall f vs, In (f, vs) (r_ant r) -> NoDup vs /\ forall v, In v vs -> exists d, knows m f v d) ->
  (forall f vs ws, In (f, vs) (r_ant r) -> In (f, ws) (r_ant r) -> incl vs ws \/ incl ws vs) ->
  matching_multi m (simplify (@List.length string) r) = matching_multi m r.
Proof.
  intros Hn HK HN. destruct (simplify_spec (@List.length string) (r_ant r)) as [K [ND S]].
  destruct (r_ant r) as [|p ant] eqn:Er.
  { unfold matching_multi, matching_multi_tn, simplify. cbn [r_ant]. rewrite Er. reflexivity. }
  rewrite <- Er in *.
  assert (Sub : forall f vs, In (f, vs) (r_ant (simplify (@List.length string) r)) -> In (f, vs) (r_ant r)).
  { intros f vs H. apply nodup_dget_In in H; [|exact ND]. destruct (S f vs H) as [l1 [l2 [-> _]]].
    apply in_or_app. right. left. reflexivity. }
  assert (NE : r_ant (simplify (@List.length string) r) <> []).
  { cbn [simplify r_ant]. intro E. rewrite E in K. assert (F : In (fst p) (first_occurrences (map fst (r_ant r)))).
    { unfold first_occurrences. rewrite <- in_rev, nodup_In, <- in_rev, Er. left. reflexivity. }
    rewrite <- K in F. destruct F. }
  destruct (@C17_min m r) as [x [Ex [[f [vs [A B]]] C]]]; [rewrite Er; discriminate|intros f vs v Hin Hv; exact (proj2 (HK f vs Hin) v Hv)|].
  destruct (@C17_min m (simplify (@List.length string) r) NE) as [y [Ey [[g [ws [A' B']]] C']]].
  { intros g ws v Hin Hv. exact (proj2 (HK g ws (Sub g ws Hin)) v Hv). }
  rewrite Ex, Ey. f_equal. apply Qcle_antisym; [|apply (C g ws); [apply Sub|]; assumption].
  (* the minimal group of r is dominated by the shortest one of its feature *)
  assert (F : In f (dkeys (simplify_ant (@List.length string) (r_ant r)))).
  { rewrite K. unfold first_occurrences. rewrite <- in_rev, nodup_In, <- in_rev. apply in_map_iff. exists (f, vs). auto. }
  destruct (dget_ex _ _ F) as [us Eu]. assert (Hu : In (f, us) (r_ant (simplify (@List.length string) r))) by (apply dget_In; exact Eu).
  assert (Hu' := Sub f us Hu). destruct (HK f us Hu') as [NDu Ku]. destruct (@group_known m f us Ku) as [s Gs].
  apply Qcle_trans with s; [apply (C' f us); assumption|].
  apply (@group_incl_le m f us vs s x); try assumption; [eauto|].
  destruct (S f us Eu) as [l1 [l2 [Ea [S1 S2]]]].
  assert (Len : (List.length us <= List.length vs)%nat).
  { rewrite Ea in A. apply in_app_or in A. destruct A as [A|[A|A]].
    - specialize (S1 vs A). lia.
    - injection A as <-. lia.
    - apply S2. assumption. }
  destruct (HN f us vs Hu' A) as [I|I]; [assumption|]. destruct (HK f vs A) as [NDv _].
  apply NoDup_length_incl; assumption.
Qed.

(** ** C19: weighted vote *)
Definition votes (rules : list (rule string)) (ms : list Qc) : list (Z * Qc) :=
  map2 (fun r x => (r_cons r, x * r_weight r)) rules ms.
Lemma vote_dict_gen m rules : forall ms d, Forall2 (fun r x => matching m r = Ok x) rules ms ->
  foldM (fun d r => do x <- matching m r; Ok (dadd (r_cons r) (x * r_weight r) d)) d rules
  = Ok (fold_left (fun d p => dadd (fst p) (snd p) d) (votes rules ms) d).
Proof.
  induction rules as [|r rules IH]; intros ms d F; inversion F as [|? x ? ms' Hx F']; subst; cbn [foldM]; [reflexivity|].
  rewrite Hx. cbn [bind]. rewrite (IH ms' _ F'). reflexivity.
Qed.
Lemma vote_dict_ok m rules ms : Forall2 (fun r x => matching m r = Ok x) rules ms ->
  vote_dict rules m = Ok (accum (votes rules ms)).
Proof. apply vote_dict_gen. Qed.
Lemma votes_keys rules ms : List.length rules = List.length ms -> map fst (votes rules ms) = map (@r_cons string) rules.
Proof.
  revert ms. induction rules as [|r rules IH]; intros [|x ms] L; cbn in *; try discriminate; [reflexivity|]. f_equal. apply IH. lia.
Qed.
Lemma support_total rules ms c : total (votes rules ms) c = support rules ms c.
Proof.
  revert ms. induction rules as [|r rules IH]; intros [|x ms]; try reflexivity.
  cbn [votes map2]. unfold support. cbn [map2]. rewrite qsum_cons. fold (support rules ms c).
  rewrite total_cons. fold (votes rules ms). rewrite IH. reflexivity.
Qed.
Lemma C19_vote m rules ms : Forall2 (fun r x => matching m r = Ok x) rules ms -> rules <> [] ->
  exists c, weighted_vote rules m = Ok c /\
    (exists l1 r l2, rules = l1 ++ r :: l2 /\ r_cons r = c /\
       forall r', In r' l1 -> support rules ms (r_cons r') < support rules ms c) /\
    (forall r', In r' rules -> support rules ms (r_cons r') <= support rules ms c).
Proof.
  intros F NE. assert (L := Forall2_len F). unfold weighted_vote. rewrite (@vote_dict_ok m rules ms F). cbn [bind].
  assert (NV : votes rules ms <> []).
  { intro E. assert (Q := votes_keys rules ms L). rewrite E in Q. destruct rules; [congruence|discriminate]. }
  destruct (dict_argmax_ok NV) as [c E]. exists c. split; [assumption|].
  apply dict_argmax_accum in E. destruct E as [E1 [E2 [l1 [x [l2 [E3 E4]]]]]]. rewrite votes_keys in * by assumption.
  split.
  - assert (exists k1 r k2, rules = k1 ++ r :: k2 /\ r_cons r = c /\ map (@r_cons string) k1 = map fst l1) as [k1 [r [k2 [Er [Ec Ek]]]]].
    { assert (Q := votes_keys rules ms L). rewrite E3, map_app in Q. cbn [map fst] in Q. clear - Q.
      revert l1 Q. induction rules as [|r rules IH]; intros l1 Q; [destruct l1; discriminate|].
      destruct l1 as [|p l1]; cbn in Q; injection Q as Q1 Q2.
      - exists [], r, rules. auto.
      - destruct (IH l1 Q2) as [k1 [r' [k2 [-> [A B]]]]]. exists (r :: k1), r', k2. cbn. rewrite B, Q1. auto. }
    exists k1, r, k2. split; [assumption|]. split; [assumption|]. intros r' Hr'. rewrite <- !support_total.
    apply E4. rewrite <- Ek. apply in_map. assumption.
  - intros r' Hr'. rewrite <- !support_total. apply E2. apply in_map. assumption.
Qed.
Lemma C19_empty_list m : weighted_vote [] m = Err ValueError.
Proof. reflexivity. Qed.
Lemma matching_err m r e : matching m r = Err e -> r_ant r = [] /\ e = ValueError.
Proof.
  intro E. destruct (r_ant r) as [|l ant] eqn:Er.
  - unfold matching, matching_tn in E. rewrite Er in E. cbn in E. split; congruence.
  - exfalso. destruct (all_known_dec m (r_ant r)) as [K|[f [v [H1 H2]]]].
    + destruct (@C16_min m r) as [x [Ex _]]; [rewrite Er; discriminate|assumption|congruence].
    + rewrite (@C16_unknown m r f v H1 H2) in E. discriminate.
Qed.
Lemma C19_empty_rule m rules r : In r rules -> r_ant r = [] -> weighted_vote rules m = Err ValueError.
Proof.
  intros H E. unfold weighted_vote, vote_dict.
  assert (G : forall d, foldM (fun d r => do x <- matching m r; Ok (dadd (r_cons r) (x * r_weight r) d)) d rules = Err ValueError).
  { induction rules as [|r' rules IH]; [destruct H|]. intro d. cbn [foldM].
    destruct (matching m r') as [x|e] eqn:M; cbn [bind].
    - destruct H as [->|H]; [|apply IH; assumption]. unfold matching, matching_tn in M. rewrite E in M. discriminate.
    - apply matching_err in M. destruct M as [_ ->]. reflexivity. }
  rewrite G. reflexivity.
Qed.

(** ** variables and sets by name *)
Lemma dict_of_get_In (K V : Type) (H : EqDec K) (l : list (K * V)) k v : dget k (dict_of l) = Some v -> In (k, v) l.
Proof. rewrite dict_of_get. intro E. apply dget_In in E. apply in_rev. assumption. Qed.
Lemma dict_of_get_None (K V : Type) (H : EqDec K) (l : list (K * V)) k : dget k (dict_of l) = None <-> ~ In k (map fst l).
Proof. rewrite dget_None. rewrite dict_of_keys_In. tauto. Qed.
Lemma dict_of_get_nodup (K V : Type) (H : EqDec K) (l : list (K * V)) k v : NoDup (map fst l) -> In (k, v) l -> dget k (dict_of l) = Some v.
Proof. intros ND Hin. rewrite dict_of_nodup by assumption. apply dget_nodup; assumption. Qed.
Lemma find_set_In vars f n s : find_set vars f n = Ok s ->
  exists v, In v vars /\ fv_name v = f /\ In s (fv_sets v) /\ fs_name s = n.
Proof.
  unfold find_set, vars_dict, sets_dict. destruct (dget f _) as [sets|] eqn:E; cbn [bind ret_opt]; [|discriminate].
  destruct (dget n _) as [s'|] eqn:E2; cbn [ret_opt]; [|discriminate]. intro H. injection H as ->.
  apply dict_of_get_In in E. apply dict_of_get_In in E2. apply in_map_iff in E. apply in_map_iff in E2.
  destruct E as [v [Ev Hv]]. injection Ev as <- <-. destruct E2 as [t [Et Ht]]. injection Et as <- ->. eauto.
Qed.
Lemma find_set_ok vars v s : NoDup (map fv_name vars) -> In v vars -> NoDup (map fs_name (fv_sets v)) -> In s (fv_sets v) ->
  find_set vars (fv_name v) (fs_name s) = Ok s.
Proof.
  intros N1 Hv N2 Hs. unfold find_set, vars_dict, sets_dict.
  erewrite dict_of_get_nodup; [|rewrite map_map; exact N1|apply in_map_iff; exists v; split; [reflexivity|assumption]].
  cbn [bind ret_opt].
  erewrite dict_of_get_nodup; [|rewrite map_map; exact N2|apply in_map_iff; exists s; split; [reflexivity|assumption]].
  reflexivity.
Qed.
Lemma find_set_err vars f n e : find_set vars f n = Err e -> e = KeyError.
Proof. unfold find_set. destruct (dget f _); cbn; [|congruence]. destruct (dget n _); cbn; congruence. Qed.
Lemma find_set_unknown vars f n :
  (forall v s, In v vars -> fv_name v = f -> In s (fv_sets v) -> fs_name s = n -> False) -> find_set vars f n = Err KeyError.
Proof.
  intro H. destruct (find_set vars f n) as [s|e] eqn:E; [|apply find_set_err in E; congruence].
  apply find_set_In in E. destruct E as [v [A [B [C D]]]]. destruct (H v s A B C D).
Qed.

(** ** C20 *)
Lemma matching_ge m r d cut : matching m r = Ok d -> 0 < cut -> (cut <= d <-> (forall f v, In (f, v) (r_ant r) -> exists e, knows m f v e /\ cut <= e)).
Proof.
  intros M P. destruct (r_ant r) as [|l ant] eqn:Er.
  { unfold matching, matching_tn in M. rewrite Er in M. discriminate. }
  rewrite <- Er. destruct (all_known_dec m (r_ant r)) as [K|[f [v [H1 H2]]]].
  - destruct (@C16_min m r) as [x [Ex [[f [v [A B]]] C]]]; [rewrite Er; discriminate|assumption|].
    rewrite M in Ex. injection Ex as <-. split.
    + intros H g w Hin. destruct (K g w Hin) as [e He]. exists e. split; [assumption|]. specialize (C g w e Hin He). qlra.
    + intro H. destruct (H f v A) as [e [He L]]. rewrite (knows_fun B He). assumption.
  - rewrite (@C16_unknown m r f v H1 H2) in M. injection M as <-. split; [intro; exfalso; qlra|].
    intro H. destruct (H f v H1) as [e [He _]]. destruct (H2 e He).
Qed.
Lemma C20_crisp vars (x : string -> cell) m r cut cr d :
  (forall v s, In v vars -> In s (fv_sets v) ->
     exists e, knows m (fv_name v) (fs_name s) e /\ membership s (x (fv_name v)) = Ok e) ->
  (forall v s t, In v vars -> In s (fv_sets v) -> In t (fv_sets v) -> fs_name s = fs_name t -> s = t) ->
  (forall v w, In v vars -> In w vars -> fv_name v = fv_name w -> v = w) ->
  0 < cut -> cut <= 1 -> to_crisp cut vars r = Ok cr -> matching m r = Ok d ->
  r_cons cr = r_cons r /\ r_weight cr = r_weight r /\ map fst (r_ant cr) = map fst (r_ant r) /\
  (cut <= d <-> Forall (crisp_holds vars x) (r_ant cr)).
Proof.
  intros HM US UV P1 P2 E M. unfold to_crisp in E.
  destruct (mapM _ (r_ant r)) as [ant|] eqn:EM; cbn [bind] in E; [|discriminate]. injection E as <-. cbn [r_cons r_weight r_ant].
  split; [reflexivity|]. split; [reflexivity|]. apply mapM_ok in EM. split.
  { clear - EM. induction EM as [|[f n] l ant' cr' H F IH]; [reflexivity|]. cbn [map fst]. f_equal; [|assumption].
    cbn [fst snd] in H. destruct (find_set vars f n) as [s|]; cbn [bind] in H; [|discriminate].
    destruct s as [c|nm vl]; [destruct (alpha_cut c cut) as [lr|]; cbn [bind] in H; [|discriminate]|];
    cbn [bind] in H; injection H as <-; reflexivity. }
  rewrite (@matching_ge m r d cut M P1). clear M.
  assert (Lit : forall f n l, (do s <- find_set vars f n; do v <- match s with FC c => do lr <- alpha_cut c cut; Ok (CrInterval (fst lr) (snd lr)) | FD _ _ => Ok (CrName n) end; Ok (f, v)) = Ok l ->
     (crisp_holds vars x l <-> exists e, knows m f n e /\ cut <= e)).
  { intros f n l H. destruct (find_set vars f n) as [s|] eqn:Es; cbn [bind] in H; [|discriminate].
    apply find_set_In in Es. destruct Es as [v [Hv [<- [Hs <-]]]]. destruct (HM v s Hv Hs) as [e [Ke Me]].
    assert (Q : (exists e0, knows m (fv_name v) (fs_name s) e0 /\ cut <= e0) <-> cut <= e).
    { split; [intros [e0 [K0 L]]; rewrite (knows_fun Ke K0); assumption|intro; exists e; auto]. }
    rewrite Q. clear Q. destruct s as [c|nm vl].
    - destruct (x (fv_name v)) as [q|] eqn:Ex; cycle 1.
      { cbn in Me. destruct (valid_points _ _ _); discriminate. }
      destruct (@C05_cut_exact c cut q e P1 P2 Me) as [a [b [Ea Eb]]]. rewrite Ea in H. cbn [bind fst snd] in H. injection H as <-.
      unfold crisp_holds. cbn [fst snd]. rewrite <- Eb. split.
      + intros [q' [Eq [L1 L2]]]. rewrite Ex in Eq. injection Eq as <-. auto.
      + intros [L1 L2]. exists q. auto.
    - cbn [bind] in H. injection H as <-. unfold crisp_holds. cbn [fst snd fs_name] in *. cbn in Me. injection Me as <-.
      unfold eqb. destruct (eq_dec (x (fv_name v)) vl) as [->|N].
      + split; [intro; assumption|]. intros _. exists v, vl. repeat split; try assumption; reflexivity.
      + split; [|intro; exfalso; qlra]. intros [w [vl' [Hw [En [Hin Ex]]]]]. exfalso. apply N.
        rewrite (UV w v Hw Hv En) in Hin. assert (Eq := US v (FD nm vl') (FD nm vl) Hv Hin Hs eq_refl). congruence. }
  clear - EM Lit. induction EM as [|[f n] l ants crs H F IH].
  - split; [constructor|intros _ f v []].
  - cbn [fst snd] in H. specialize (Lit f n l H). split.
    + intro K. constructor; [apply Lit, K; left; reflexivity|]. apply IH. intros; apply K; right; assumption.
    + intros K. inversion K as [|? ? K1 K2]; subst. intros g w [E|Hin]; [injection E as <- <-; apply Lit; assumption|].
      apply (proj2 IH K2). assumption.
Qed.
Lemma C20_ok vars r cut : (forall f n, In (f, n) (r_ant r) -> exists s, find_set vars f n = Ok s) ->
  0 <= cut -> cut <= 1 -> exists cr, to_crisp cut vars r = Ok cr.
Proof.
  intros K L1 L2. unfold to_crisp. match goal with |- context [mapM ?f ?l] => destruct (@mapM_total _ _ f l) as [ys ->] end; [|cbn; eauto].
  intros [f n] Hin. cbn [fst snd]. destruct (K f n Hin) as [s ->]. cbn [bind]. destruct s as [c|]; [|cbn; eauto].
  unfold alpha_cut. rewrite (proj2 (qltb_ge _ _) L1), (proj2 (qltb_ge _ _) L2). cbn. eauto.
Qed.
Lemma C20_err vars r cut : (forall f n, In (f, n) (r_ant r) -> exists s, find_set vars f n = Ok s) ->
  (exists f n c, In (f, n) (r_ant r) /\ find_set vars f n = Ok (FC c)) ->
  cut < 0 \/ 1 < cut -> to_crisp cut vars r = Err ValueError.
Proof.
  intros K [f [n [c [Hin Hc]]]] B. unfold to_crisp.
  match goal with |- context [mapM ?g ?l] => assert (M : mapM g l = Err ValueError) end; [|rewrite M; reflexivity].
  induction (r_ant r) as [|[f' n'] ant IH]; [destruct Hin|]. cbn [mapM fst snd].
  destruct (K f' n') as [s Es]; [left; reflexivity|]. rewrite Es. cbn [bind]. destruct s as [c'|nm vl]; cbn [bind].
  - rewrite alpha_cut_err by assumption. reflexivity.
  - destruct Hin as [E|Hin]; [injection E as -> ->; congruence|]. rewrite IH; [reflexivity| |assumption].
    intros; apply K; right; assumption.
Qed.

(** ** C22 *)
Lemma C22_json vars r : NoDup (map fst (r_ant r)) ->
  (forall f n, In (f, n) (r_ant r) -> exists s, find_set vars f n = Ok s) ->
  exists things, to_json vars r = Ok (r_ant r, r_cons r, r_weight r, things) /\
    Forall2 (fun l th => exists s, find_set vars (fst l) (snd l) = Ok s /\
       fst (fst th) = fst l /\ snd (fst th) = snd l /\
       snd th = match s with FC c => Some (pa c, pb c, pc c) | FD _ _ => None end) (r_ant r) things.
Proof.
  intros ND K. unfold to_json. destruct (@mapM_total _ _ (fun fv => do s <- find_set vars (fst fv) (snd fv); Ok (describe (fst fv) s)) (r_ant r)) as [ys E].
  { intros [f n] Hin. destruct (K f n Hin) as [s Es]. cbn [fst snd]. rewrite Es. cbn. eauto. }
  rewrite E. cbn [bind]. exists ys. rewrite dict_of_nodup by assumption. split; [reflexivity|].
  apply mapM_ok in E. clear - E. induction E as [|[f n] th l ths H F IH]; constructor; [|assumption].
  cbn [fst snd] in *. destruct (find_set vars f n) as [s|] eqn:Es; cbn [bind] in H; [|discriminate]. injection H as <-.
  exists s. split; [reflexivity|]. destruct (find_set_In vars f n Es) as [v [_ [_ [_ Hn]]]].
  destruct s; cbn in *; auto.
Qed.
Lemma C22_unknown vars r f n : In (f, n) (r_ant r) -> find_set vars f n = Err KeyError -> to_json vars r = Err KeyError.
Proof.
  intros H E. unfold to_json.
  destruct (@mapM_some_err _ _ (fun fv => do s <- find_set vars (fst fv) (snd fv); Ok (describe (fst fv) s)) (r_ant r) (f, n) KeyError H) as [e M].
  { cbn [fst snd]. rewrite E. reflexivity. }
  rewrite M. cbn. f_equal. apply mapM_err in M. destruct M as [[f' n'] [_ M]]. cbn [fst snd] in M.
  destruct (find_set vars f' n') as [s|e'] eqn:F; cbn in M; [discriminate|]. apply find_set_err in F. congruence.
Qed.
Lemma C22_multi vars r : NoDup (map fst (r_ant r)) ->
  (forall f ns n, In (f, ns) (r_ant r) -> In n ns -> exists s, find_set vars f n = Ok s) ->
  (forall f ns, In (f, ns) (r_ant r) -> exists v, In v vars /\ fv_name v = f) ->
  exists things, to_json_multi vars r = Ok (r_ant r, r_cons r, r_weight r, things) /\
    Forall2 (fun l th => exists s, find_set vars (fst l) (snd l) = Ok s /\
       fst (fst th) = fst l /\ snd (fst th) = snd l /\
       snd th = match s with FC c => Some (pa c, pb c, pc c) | FD _ _ => None end)
      (List.concat (map (fun fv => map (fun n => (fst fv, n)) (snd fv)) (r_ant r))) things.
Proof.
  intros ND K KV. unfold to_json_multi.
  match goal with |- context [mapM ?g (r_ant r)] => set (G := g) end.
  assert (T : exists ys, mapM G (r_ant r) = Ok ys /\
    Forall2 (fun l th => exists s, find_set vars (fst l) (snd l) = Ok s /\
       fst (fst th) = fst l /\ snd (fst th) = snd l /\
       snd th = match s with FC c => Some (pa c, pb c, pc c) | FD _ _ => None end)
      (List.concat (map (fun fv => map (fun n => (fst fv, n)) (snd fv)) (r_ant r))) (List.concat ys)).
  { clear ND. induction (r_ant r) as [|[f ns] l IH]; [exists []; split; [reflexivity|constructor]|].
    destruct IH as [ys [E F]]; [intros; eapply K; eauto; right; eauto|intros; eapply KV; right; eauto|].
    assert (H : exists zs, G (f, ns) = Ok zs /\ Forall2 (fun l th => exists s, find_set vars (fst l) (snd l) = Ok s /\
       fst (fst th) = fst l /\ snd (fst th) = snd l /\
       snd th = match s with FC c => Some (pa c, pb c, pc c) | FD _ _ => None end) (map (fun n => (f, n)) ns) zs).
    { unfold G. cbn [fst snd]. destruct (KV f ns (or_introl eq_refl)) as [v [Hv Ev]].
      assert (Hd : exists sets, dget f (vars_dict vars) = Some sets).
      { apply dget_ex. apply dict_of_keys_In. rewrite map_map. cbn [fst]. apply in_map_iff. eauto. }
      destruct Hd as [sets Ed]. rewrite Ed. cbn [bind ret_opt].
      assert (Kn : forall n, In n ns -> exists s, dget n (sets_dict sets) = Some s /\ find_set vars f n = Ok s).
      { intros n Hn. destruct (K f ns n (or_introl eq_refl) Hn) as [s Es]. exists s. split; [|assumption].
        unfold find_set in Es. rewrite Ed in Es. cbn [bind ret_opt] in Es. destruct (dget n (sets_dict sets)); cbn in Es; congruence. }
      clear - Kn. induction ns as [|n ns IH]; [exists []; split; [reflexivity|constructor]|].
      destruct (Kn n (or_introl eq_refl)) as [s [E1 E2]]. destruct IH as [zs [E F]]; [intros; apply Kn; right; assumption|].
      exists (describe f s :: zs). cbn [mapM]. rewrite E1. cbn [bind ret_opt]. rewrite E. split; [reflexivity|].
      cbn [map]. constructor; [|assumption]. exists s. cbn [fst snd]. split; [assumption|].
      destruct (find_set_In vars f n E2) as [v [_ [_ [_ Hn]]]]. destruct s; cbn in *; auto. }
    destruct H as [zs [Ez Fz]]. exists (zs :: ys). cbn [mapM]. rewrite Ez. cbn [bind]. rewrite E. split; [reflexivity|].
    cbn [map List.concat fst snd]. apply Forall2_app; assumption. }
  destruct T as [ys [E F]]. rewrite E. cbn [bind]. exists (List.concat ys). rewrite dict_of_nodup by assumption. split; [reflexivity|assumption].
Qed.

(** ** C21 *)
Lemma best_set_spec key sets b : best_set key sets = Ok b -> first_best key sets b.
Proof.
  unfold best_set. destruct (mapM _ sets) as [ks|] eqn:E; cbn [bind]; [|discriminate].
  destruct (max_by _ ks) as [[kb b']|] eqn:M; cbn [bind ret_opt snd]; [|discriminate]. intro H. injection H as ->.
  apply (@max_by_spec (Qc * fset) fst) in M. destruct M as [M1 [M2 [l1 [l2 [M3 M4]]]]].
  apply mapM_ok in E.
  assert (G : forall k s, In (k, s) ks -> key s = Ok k /\ In s sets).
  { clear - E. intros k s H. induction E as [|s' [k' s''] l ks' H' F IH]; [destruct H|].
    destruct H as [H|H].
    - injection H as -> ->. destruct (key s') as [k0|] eqn:K; cbn in H'; [|discriminate]. injection H' as -> ->. split; [assumption|left; reflexivity].
    - destruct (IH H). split; [assumption|right; assumption]. }
  assert (G' : forall s, In s sets -> exists k, In (k, s) ks /\ key s = Ok k).
  { clear - E. intros s H. induction E as [|s' [k' s''] l ks' H' F IH]; [destruct H|].
    destruct (key s') as [k0|] eqn:K; cbn in H'; [|discriminate]. injection H' as -> ->. destruct H as [->|H].
    - exists k'. split; [left; reflexivity|assumption].
    - destruct (IH H) as [k [A B]]. exists k. split; [right; assumption|assumption]. }
  destruct (G kb b M1) as [Kb Hb]. exists kb. split; [assumption|]. split.
  - intros s Hs. destruct (G' s Hs) as [k [A B]]. exists k. split; [assumption|]. apply (M2 (k, s) A).
  - assert (Es : sets = map snd ks).
    { clear - E. induction E as [|s' [k' s''] l ks' H' F IH]; [reflexivity|]. cbn [map snd]. f_equal; [|assumption].
      destruct (key s') as [k0|]; cbn in H'; [|discriminate]. congruence. }
    exists (map snd l1), (map snd l2). split; [rewrite Es, M3, map_app; reflexivity|].
    intros s k Hs Hk. apply in_map_iff in Hs. destruct Hs as [[k' s'] [<- Hs]]. rewrite Forall_forall in M4. specialize (M4 _ Hs). cbn in *.
    assert (In (k', s') ks) by (rewrite M3; apply in_or_app; left; assumption). destruct (G k' s' H). congruence.
Qed.
Lemma best_set_ok key sets : sets <> [] -> (forall s, In s sets -> exists k, key s = Ok k) -> exists b, best_set key sets = Ok b.
Proof.
  intros NE H. unfold best_set. destruct (@mapM_total _ _ (fun s => do k <- key s; Ok (k, s)) sets) as [ks E].
  { intros s Hs. destruct (H s Hs) as [k ->]. cbn. eauto. }
  rewrite E. cbn [bind]. apply mapM_length in E. destruct ks as [|p ks]; [destruct sets; [congruence|discriminate]|]. cbn. eauto.
Qed.
Lemma keys_eqb_spec d1 d2 : keys_eqb d1 d2 = true <-> (forall k, In k (dkeys d1) <-> In k (dkeys d2)).
Proof.
  unfold keys_eqb, dmem. rewrite andb_true_iff, !forallb_forall. split.
  - intros [A B] k. split; intro H; [apply A in H|apply B in H]; rewrite memb_In in H; assumption.
  - intro H. split; intros k Hk; rewrite memb_In; apply H; assumption.
Qed.
Lemma vars_dict_keys vars k : In k (dkeys (vars_dict vars)) <-> In k (map fv_name vars).
Proof. unfold vars_dict. rewrite dict_of_keys_In, map_map. reflexivity. Qed.
Lemma C21_map r origin dest mf r' : map_rule_variables r origin dest mf = Ok r' ->
  r_cons r' = r_cons r /\ r_weight r' = r_weight r /\
  Forall2 (fun l l' => fst l' = fst l /\
     exists o v b, find_set origin (fst l) (snd l) = Ok o /\ In v dest /\ fv_name v = fst l /\
       first_best (fun s => set_key mf s o) (fv_sets v) b /\ snd l' = fs_name b) (r_ant r) (r_ant r').
Proof.
  unfold map_rule_variables. destruct (negb _); [discriminate|].
  destruct (mapM _ (r_ant r)) as [ant|] eqn:E; cbn [bind]; [|discriminate]. intro H. injection H as <-. cbn [r_cons r_weight r_ant].
  split; [reflexivity|]. split; [reflexivity|]. apply mapM_ok in E.
  induction E as [|[f n] l' ant0 ant' H F IH]; constructor; [|assumption]. cbn [fst snd] in *.
  destruct (dget f (vars_dict origin)) as [os|] eqn:E1; cbn [bind ret_opt] in H; [|discriminate].
  destruct (dget f (vars_dict dest)) as [ds|] eqn:E2; cbn [bind ret_opt] in H; [|discriminate].
  destruct (dget n (sets_dict os)) as [o|] eqn:E3; cbn [bind ret_opt] in H; [|discriminate].
  destruct (match mf with MapIntersection => _ | MapSimmilarity => _ | MapOther => _ end) as [b|] eqn:E4; cbn [bind] in H; [|discriminate].
  injection H as <-. cbn [fst snd]. split; [reflexivity|].
  unfold vars_dict in E2. apply dict_of_get_In in E2. apply in_map_iff in E2. destruct E2 as [v [Ev Hv]]. injection Ev as <- <-.
  exists o, v, b. unfold find_set. rewrite E1. cbn [bind ret_opt]. rewrite E3.
  repeat split; try assumption.
  destruct mf; [apply best_set_spec; assumption|apply best_set_spec; assumption|discriminate].
Qed.
Lemma C21_universes r origin dest mf : ~ (forall k, In k (map fv_name origin) <-> In k (map fv_name dest)) ->
  map_rule_variables r origin dest mf = Err ValueError.
Proof.
  intro N. unfold map_rule_variables. destruct (keys_eqb _ _) eqn:E; [|reflexivity]. exfalso. apply N.
  rewrite keys_eqb_spec in E. intro k. rewrite <- !vars_dict_keys. apply E.
Qed.
Lemma C21_other r origin dest f n l : r_ant r = (f, n) :: l -> (exists o, find_set origin f n = Ok o) ->
  map_rule_variables r origin dest MapOther = Err ValueError.
Proof.
  intros Er [o Eo]. unfold map_rule_variables. destruct (keys_eqb _ _) eqn:E; cbn [negb]; [|reflexivity].
  rewrite Er. cbn [mapM fst snd]. unfold find_set in Eo.
  destruct (dget f (vars_dict origin)) as [os|] eqn:E1; cbn [bind ret_opt] in *; [|discriminate].
  assert (Hf : In f (dkeys (vars_dict dest))).
  { rewrite keys_eqb_spec in E. apply E. eapply dget_Some_key; eauto. }
  destruct (dget_ex _ _ Hf) as [ds ->]. cbn [bind ret_opt].
  destruct (dget n (sets_dict os)); cbn [bind ret_opt] in *; [reflexivity|discriminate].
Qed.
Lemma separated_self v s t : separated v -> In s (fv_sets v) -> In t (fv_sets v) -> intersection s t = Ok 1 -> s = t.
Proof.
  intros [ND [[cs [E [V N]]]|[ds E]]] Hs Ht H.
  - rewrite E in Hs, Ht. apply in_map_iff in Hs. apply in_map_iff in Ht. destruct Hs as [c [<- Hc]]. destruct Ht as [c' [<- Hc']].
    destruct C06_laws as [_ [_ [_ [L _]]]]. apply L in H; [|auto|auto]. f_equal.
    clear - N H Hc Hc'. induction cs as [|x cs IH]; [destruct Hc|]. cbn in N. inversion N as [|? ? N1 N2]; subst.
    destruct Hc as [->|Hc], Hc' as [->|Hc']; [reflexivity| | |auto].
    + exfalso. apply N1. rewrite H. apply in_map. assumption.
    + exfalso. apply N1. rewrite <- H. apply in_map. assumption.
  - rewrite E in Hs, Ht. apply in_map_iff in Hs. apply in_map_iff in Ht. destruct Hs as [[n u] [<- Hc]]. destruct Ht as [[n' u'] [<- Hc']].
    cbn [fst snd] in *. apply discrete_intersection in H. destruct H as [-> ->]. reflexivity.
Qed.
Lemma self_intersection s : intersection s s = Ok 1.
Proof.
  destruct s as [c|n v]; [destruct C06_laws as [_ [_ [L _]]]; apply L|]. apply discrete_intersection. split; reflexivity.
Qed.
Lemma C21_identity r vars : NoDup (map fv_name vars) -> (forall v, In v vars -> separated v) ->
  (forall f n, In (f, n) (r_ant r) -> exists s, find_set vars f n = Ok s) ->
  map_rule_variables r vars vars MapIntersection = Ok r.
Proof.
  intros ND SP K. unfold map_rule_variables.
  rewrite (proj2 (keys_eqb_spec (vars_dict vars) (vars_dict vars))) by tauto. cbn [negb].
  match goal with |- context [mapM ?g ?l] => assert (M : mapM g l = Ok l) end; [|rewrite M; cbn; destruct r; reflexivity].
  induction (r_ant r) as [|[f n] l IH]; [reflexivity|]. cbn [mapM fst snd].
  destruct (K f n) as [s Es]; [left; reflexivity|]. rewrite IH by (intros; apply K; right; assumption).
  destruct (find_set_In vars f n Es) as [v [Hv [<- [Hs <-]]]].
  assert (Ed : dget (fv_name v) (vars_dict vars) = Some (fv_sets v)).
  { unfold vars_dict. apply dict_of_get_nodup; [rewrite map_map; exact ND|]. apply in_map_iff. exists v. auto. }
  rewrite Ed. cbn [bind ret_opt]. destruct (SP v Hv) as [NDs _].
  assert (Ed2 : dget (fs_name s) (sets_dict (fv_sets v)) = Some s).
  { unfold sets_dict. apply dict_of_get_nodup; [rewrite map_map; exact NDs|]. apply in_map_iff. exists s. auto. }
  rewrite Ed2. cbn [bind ret_opt].
  destruct (@best_set_ok (fun t => intersection t s) (fv_sets v)) as [b Eb].
  { intro E. rewrite E in Hs. destruct Hs. }
  { intros t Ht. destruct (SP v Hv) as [_ [[cs [E _]]|[ds E]]]; rewrite E in Hs, Ht; apply in_map_iff in Hs; apply in_map_iff in Ht;
      destruct Hs as [? [<- _]]; destruct Ht as [? [<- _]]; cbn; eauto. }
  rewrite Eb. cbn [bind]. apply best_set_spec in Eb. destruct Eb as [kb [B1 [B2 [l1 [l2 [B3 _]]]]]].
  assert (Hb : In b (fv_sets v)) by (rewrite B3; apply in_or_app; right; left; reflexivity).
  destruct (B2 s Hs) as [k [Hk Lk]]. rewrite self_intersection in Hk. injection Hk as <-.
  assert (kb <= 1) by (destruct C06_laws as [_ [L _]]; apply (L b s kb B1)).
  assert (kb = 1) by (apply Qcle_antisym; assumption). subst kb.
  rewrite (@separated_self v b s (SP v Hv) Hb Hs B1). reflexivity.
Qed.
