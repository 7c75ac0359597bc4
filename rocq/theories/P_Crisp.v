(** * Proofs about rows without fuzziness *)
From Verif Require Import Prelude M_Fuzzy M_Discretize M_Rule M_FDT S_Rule S_FDT S_Crisp P_FuzzySet P_FuzzyVar P_Entropy P_Rule P_FDT P_FDT2 P_FDT3 P_FDT4.
Set Implicit Arguments.
Open Scope Qc_scope.

Lemma crisp_lit vars row l : crisp vars row -> lit_degree vars row l = 1 \/ lit_degree vars row l = 0.
Proof.
  intro C. destruct l as [a i]. destruct (nth_error vars a) as [v|] eqn:E.
  - destruct (C a v E) as (k & _ & H1 & H0). destruct (Nat.eq_dec i k) as [->|D]; auto.
  - right. unfold lit_degree. cbn [fst]. rewrite E. reflexivity.
Qed.
Lemma act_zero tn vars row p : crisp_norm tn -> crisp vars row -> act_from tn vars row 0 p = 0.
Proof.
  intros (_ & _ & A & B) C. induction p as [|l p IH]; [reflexivity|]. unfold act_from. cbn [fold_left].
  destruct (crisp_lit l C) as [-> | ->]; rewrite ?A, ?B; exact IH.
Qed.
Lemma act_inside tn vars row p : crisp_norm tn -> crisp vars row -> act_from tn vars row 1 p = if inside vars row p then 1 else 0.
Proof.
  intros N C. assert (N' := N). destruct N' as (A & B & _). induction p as [|l p IH]; [reflexivity|]. unfold act_from, inside. cbn [fold_left forallb].
  destruct (crisp_lit l C) as [E|E]; rewrite E.
  - rewrite A. cbn [andb]. replace (qeqb 1 1) with true by reflexivity. exact IH.
  - rewrite B. replace (qeqb 0 1) with false by reflexivity. apply act_zero; assumption.
Qed.
Lemma activation_inside tn vars row p : crisp_norm tn -> crisp vars row -> activation tn vars row p = if inside vars row p then 1 else 0.
Proof. exact (@act_inside tn vars row p). Qed.
Lemma qmin_crisp : crisp_norm qmin. Proof. repeat split; reflexivity. Qed.

(** children of inner nodes: one for every set of a variable *)
Definition complete (vars : list fvar) (t : tree) : Prop := forall p n, node_at t p n -> t_leaf n = false ->
  exists a v, nth_error vars a = Some v /\ map t_value (t_children n) = map (fun i => Some (a, i)) (seq 0 (List.length (fv_sets v))).
Definition only (vars : list fvar) (row : list cell) (l : list (list (nat * nat) * tree)) : Prop :=
  exists l1 p n l2, l = l1 ++ (p, n) :: l2 /\ inside vars row p = true /\
    forall q m, In (q, m) (l1 ++ l2) -> inside vars row q = false.
Lemma one_leaf vars row t : crisp vars row -> complete vars t -> only vars row (leaves t).
Proof.
  intro C. induction t as [lf cs cv lv va vr mu IH] using tree_ind'. intro H. destruct lf.
  - exists [], [], (Tree true cs cv lv va vr mu), []. split; [reflexivity|]. split; [reflexivity|]. intros q m [].
  - destruct (H [] _ (at_self _) eq_refl) as (a & v & Hv & Hc). cbn [t_children] in Hc. rewrite leaves_inner.
    destruct (C a v Hv) as (i & Hi & H1 & H0).
    assert (Ex : exists cs1 c cs2, cs = cs1 ++ c :: cs2 /\ List.length cs1 = i).
    { assert (L : List.length cs = List.length (fv_sets v)) by (apply (f_equal (@List.length _)) in Hc; rewrite !map_length, seq_length in Hc; exact Hc).
      destruct (nth_error cs i) as [c|] eqn:E; [|apply nth_error_None in E; lia]. apply nth_error_split in E. destruct E as (l1 & l2 & E & E'). eauto. }
    destruct Ex as (cs1 & c & cs2 & -> & L1).
    assert (Val : forall k c', nth_error (cs1 ++ c :: cs2) k = Some c' -> t_value c' = Some (a, k)).
    { intros k c' Hk. assert (Q := map_nth_error t_value _ _ Hk). rewrite Hc in Q.
      assert (Q' : (k < List.length (fv_sets v))%nat).
      { apply nth_error_Some_lt in Q || (assert (Q0 : nth_error (map (fun i => Some (a, i)) (seq 0 (List.length (fv_sets v)))) k <> None) by congruence; apply nth_error_Some in Q0; rewrite map_length, seq_length in Q0). assumption. }
      rewrite (map_nth_error (fun i => Some (a, i)) k (seq 0 (List.length (fv_sets v))) (d := k)) in Q; [congruence|].
      rewrite (nth_error_nth' _ 0%nat) by (rewrite seq_length; assumption). rewrite seq_nth by assumption. reflexivity. }
    assert (Vc : t_value c = Some (a, i)). { apply Val. rewrite nth_error_app2 by lia. rewrite L1, Nat.sub_diag. reflexivity. }
    assert (Hin : complete vars c).
    { intros p n Hn Ln. apply (H ((a, i) :: p) n); [|assumption]. eapply at_child; [reflexivity| |exact Vc|exact Hn]. cbn [t_children]. apply in_or_app. right. left. reflexivity. }
    rewrite Forall_forall in IH. destruct (IH c) with (2 := Hin) as (l1 & p & n & l2 & E & Ip & Iq); [apply in_or_app; right; left; reflexivity|]. 
    rewrite map_app, concat_app. cbn [map List.concat]. rewrite E, map_app. cbn [map].
    set (A := List.concat (map (fun c => map (extend c) (leaves c)) cs1)). set (B := List.concat (map (fun c => map (extend c) (leaves c)) cs2)).
    exists (A ++ map (extend c) l1), (own c ++ p), n, (map (extend c) l2 ++ B).
    split; [unfold extend at 2; cbn [fst snd]; rewrite <- !app_assoc; reflexivity|].
    assert (Oc : own c = [(a, i)]) by (unfold own; rewrite Vc; reflexivity). rewrite Oc.
    split; [unfold inside; cbn [app forallb]; rewrite H1; exact Ip|].
    assert (Out : forall k c' q m, nth_error (cs1 ++ c :: cs2) k = Some c' -> k <> i -> In (q, m) (map (extend c') (leaves c')) -> inside vars row q = false).
    { intros k c' q m Hk Dk Hq. apply in_map_iff in Hq. destruct Hq as [[q' m'] [Eq _]]. unfold extend, own in Eq. rewrite (Val k c' Hk) in Eq. injection Eq as <- _.
      unfold inside. cbn [app forallb fst]. rewrite (H0 k Dk). reflexivity. }
    intros q m Hq. rewrite !in_app_iff in Hq. destruct Hq as [[Hq|Hq]|[Hq|Hq]].
    + unfold A in Hq. apply in_concat in Hq. destruct Hq as [l [Hl Hq]]. apply in_map_iff in Hl. destruct Hl as [c' [<- Hc']].
      destruct (In_nth_error _ _ Hc') as [k Hk]. assert (Hk' : (k < List.length cs1)%nat) by (apply nth_error_Some; congruence).
      apply (Out k c' q m); [rewrite nth_error_app1; assumption|lia|exact Hq].
    + apply in_map_iff in Hq. destruct Hq as [[q' m'] [Eq Hq]]. unfold extend in Eq. rewrite Oc in Eq. injection Eq as <- <-. unfold inside. cbn [app forallb fst]. rewrite H1.
      apply (Iq q' m'). apply in_or_app. left. assumption.
    + apply in_map_iff in Hq. destruct Hq as [[q' m'] [Eq Hq]]. unfold extend in Eq. rewrite Oc in Eq. injection Eq as <- <-. unfold inside. cbn [app forallb fst]. rewrite H1.
      apply (Iq q' m'). apply in_or_app. right. assumption.
    + unfold B in Hq. apply in_concat in Hq. destruct Hq as [l [Hl Hq]]. apply in_map_iff in Hl. destruct Hl as [c' [<- Hc']].
      destruct (In_nth_error _ _ Hc') as [k Hk].
      apply (Out (List.length cs1 + S k)%nat c' q m); [|lia|exact Hq]. rewrite nth_error_app2 by lia.
      replace (List.length cs1 + S k - List.length cs1)%nat with (S k) by lia. exact Hk.
Qed.
Lemma trained_complete cfg ord X y t : trained cfg ord X y t -> complete (f_vars cfg) t.
Proof.
  intros T p n H L. destruct (node_inner T H L) as (a & v & Hv & Ch & _ & _ & A & _). eauto.
Qed.
Lemma crisp_sets vars row : crisp vars row -> forall v, In v vars -> fv_sets v <> [].
Proof.
  intros C v Hv E. destruct (In_nth_error _ _ Hv) as [a Ha]. destruct (C a v Ha) as (i & Hi & _). rewrite E in Hi. inversion Hi.
Qed.

(** support of a class = its weight at the only leaf *)
Lemma only_support cfg t row l1 p n l2 c : crisp_norm (f_tnorm cfg) -> crisp (f_vars cfg) row ->
  leaves t = l1 ++ (p, n) :: l2 -> inside (f_vars cfg) row p = true -> 0 <= leaf_weight n c ->
  (forall q m, In (q, m) (l1 ++ l2) -> inside (f_vars cfg) row q = false) -> row_support cfg t row c = leaf_weight n c.
Proof.
  intros N C E Ip Wn Iq. set (g := fun pl : list (nat * nat) * tree => leaf_weight (snd pl) c * activation (f_tnorm cfg) (f_vars cfg) row (fst pl)).
  assert (Gp : g (p, n) = leaf_weight n c). { unfold g. cbn [fst snd]. rewrite (activation_inside p N C), Ip. ring. }
  assert (Gz : forall pl, In pl (l1 ++ l2) -> g pl = 0). { intros [q m] H. unfold g. cbn [fst snd]. rewrite (activation_inside q N C), (Iq q m H). ring. }
  assert (Z1 : forall l, (forall pl, In pl l -> g pl = 0) -> qsum (map g l) = 0).
  { induction l as [|x l IH]; intro H; [reflexivity|]. cbn [map]. rewrite qsum_cons, (H x (or_introl eq_refl)), IH; [ring|]. intros pl Hpl. apply H. right. assumption. }
  assert (Z2 : forall l b, 0 <= b -> (forall pl, In pl l -> g pl = 0) -> fold_right qmax b (map g l) = b).
  { induction l as [|x l IH]; intros b Hb H; [reflexivity|]. cbn [map fold_right]. rewrite (H x (or_introl eq_refl)), IH; [|assumption|intros pl Hpl; apply H; right; assumption].
    clear - Hb. unfold qmax; qcase; qlra. }
  assert (D1 : forall pl, In pl l1 -> g pl = 0) by (intros; apply Gz, in_or_app; auto).
  assert (D2 : forall pl, In pl l2 -> g pl = 0) by (intros; apply Gz, in_or_app; auto).
  unfold row_support, tree_support, tree_max_support. fold g. rewrite E, map_app. cbn [map]. destruct (f_voting cfg).
  - rewrite qsum_app, qsum_cons, (Z1 l1 D1), (Z1 l2 D2), Gp. ring.
  - rewrite fold_right_app. cbn [fold_right]. rewrite (Z2 l2 0 (Qcle_refl 0) D2), Gp.
    assert (M : qmax (leaf_weight n c) 0 = leaf_weight n c).
    { clear - Wn. unfold qmax; qcase; qlra. }
    rewrite M. apply Z2; assumption.
Qed.

(** masses of crisp training rows are counts *)
Lemma crisp_class_mass vars X y p c : (forall row, In row X -> crisp vars row) -> List.length X = List.length y ->
  class_mass vars X y p c = frequency (members vars X y p) c.
Proof.
  intros C. unfold class_mass, acts, members, frequency. revert y. induction X as [|row X IH]; intros [|k y] L; try discriminate; [reflexivity|].
  cbn [map map2 combine filter fst]. rewrite qsum_cons. rewrite (IH (fun r H => C r (or_intror H)) y) by (cbn in L; lia).
  rewrite (activation_inside p qmin_crisp (C row (or_introl eq_refl))). destruct (inside vars row p); cbn [map snd count_occ].
  - destruct (Z.eqb_spec k c) as [->|D]; destruct (Z.eq_dec _ c) as [E|E]; try congruence.
    + rewrite qn_S. reflexivity.
    + ring.
  - destruct (Z.eqb k c); ring.
Qed.
Lemma crisp_mass vars X y p : (forall row, In row X -> crisp vars row) -> List.length X = List.length y ->
  mass vars X p = qn (List.length (members vars X y p)).
Proof.
  intros C. unfold mass, acts, members. revert y. induction X as [|row X IH]; intros [|k y] L; try discriminate; [reflexivity|].
  cbn [map combine filter fst]. rewrite qsum_cons. rewrite (IH (fun r H => C r (or_intror H)) y) by (cbn in L; lia).
  rewrite (activation_inside p qmin_crisp (C row (or_introl eq_refl))). destruct (inside vars row p); cbn [map snd List.length].
  - rewrite qn_S. reflexivity.
  - ring.
Qed.
