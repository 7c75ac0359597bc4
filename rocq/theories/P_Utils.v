(** * Proofs about the distance functions *)
From Verif Require Import Prelude M_Fuzzy M_Discretize M_Rule M_FDT M_ID3 M_Neighborhood M_Sampling M_Genetic M_Utils S_Utils P_Metrics P_Counterfactual P_Neighborhood2 P_Explainer P_Sampling P_Genetic.
Set Implicit Arguments.
Open Scope Qc_scope.

(** simple matching *)
Lemma mismatches_cons a x y : mismatches (a :: x) y =
  ((if eqb (Some a) (hd_error y) then 0 else 1) + mismatches x (tl y))%nat.
Proof.
  unfold mismatches. cbn [List.length seq filter]. rewrite <- seq_shift.
  assert (E : forall i, nth_error y (S i) = nth_error (tl y) i) by (intro i; destruct y, i; reflexivity).
  assert (F : List.length (filter (fun i => negb (eqb (nth_error (a :: x) i) (nth_error y i))) (map S (seq 0 (List.length x)))) =
              List.length (filter (fun i => negb (eqb (nth_error x i) (nth_error (tl y) i))) (seq 0 (List.length x)))).
  { generalize (seq 0 (List.length x)) as l. induction l as [|i l IH]; [reflexivity|]. cbn [map filter]. change (nth_error (a :: x) (S i)) with (nth_error x i). rewrite E.
    destruct (negb _); cbn [List.length]; rewrite IH; reflexivity. }
  assert (H0 : nth_error y 0 = hd_error y) by (destruct y; reflexivity).
  change (nth_error (a :: x) 0) with (Some a). rewrite H0. destruct (eqb (Some a) (hd_error y)); cbn [negb List.length]; rewrite F; reflexivity.
Qed.
Lemma match_count x : forall y n, fold_left (fun n (p : cell * cell) => if eqb (fst p) (snd p) then S n else n) (zip x y) n = (n + (List.length x - mismatches x y))%nat /\ (mismatches x y <= List.length x)%nat.
Proof.
  induction x as [|a x IH]; intros y n.
  - cbn. split; [lia|reflexivity].
  - rewrite mismatches_cons. destruct y as [|b y].
    + destruct (IH [] n) as (A & B). unfold zip in *. cbn [combine fold_left hd_error tl List.length].
      assert (E : eqb (Some a) None = false) by (apply eqb_neq; discriminate). rewrite E.
      assert (C : combine x (@nil cell) = []) by (destruct x; reflexivity). rewrite C in A. cbn [fold_left] in A. split; lia.
    + unfold zip. cbn [combine fold_left hd_error tl List.length fst snd].
      destruct (eqb a b) eqn:E.
      * rewrite eqb_eq in E. subst b. rewrite eqb_refl. destruct (IH y (S n)) as (A & B). unfold zip in A. rewrite A. split; lia.
      * assert (E' : eqb (Some a) (Some b) = false). { apply eqb_neq. apply eqb_neq in E. congruence. } rewrite E'. destruct (IH y n) as (A & B). unfold zip in A. rewrite A. split; lia.
Qed.
Lemma qn_minus a b : (b <= a)%nat -> qn (a - b) = qn a - qn b.
Proof. intro H. assert (E : qn a = qn (a - b) + qn b) by (rewrite <- qn_plus; f_equal; lia). rewrite E. ring. Qed.
Lemma simple_match_spec x y : simple_match x y = if Nat.eqb (List.length x) 0 then Err ZeroDivisionError else Ok (qn (mismatches x y) / qn (List.length x)).
Proof.
  unfold simple_match. destruct (Nat.eqb_spec (List.length x) 0) as [E|E]; [reflexivity|]. apply (f_equal (@Ok _)).
  destruct (match_count x y 0) as (A & B). rewrite A. rewrite Nat.add_0_l, qn_minus by assumption. field. apply not_eq_sym, Qclt_not_eq, qn_pos. lia.
Qed.
Lemma mismatches_le x y : (mismatches x y <= List.length x)%nat.
Proof. apply (match_count x y 0). Qed.
Lemma mismatches_zero x y : mismatches x y = 0%nat <-> exists z, y = x ++ z.
Proof.
  revert y. induction x as [|a x IH]; intro y.
  - split; [exists y; reflexivity|reflexivity].
  - rewrite mismatches_cons. destruct y as [|b y]; cbn [hd_error tl].
    + assert (E : eqb (Some a) None = false) by (apply eqb_neq; discriminate). rewrite E. split; [lia|intros (z & H); discriminate].
    + destruct (eqb (Some a) (Some b)) eqn:E.
      * rewrite eqb_eq in E. injection E as ->. rewrite Nat.add_0_l, IH. split; intros (z & H); exists z; [rewrite H; reflexivity|injection H as H; exact H].
      * split; [lia|]. intros (z & H). injection H as -> _. rewrite eqb_refl in E. discriminate.
Qed.
Lemma mismatches_sym x : forall y, List.length x = List.length y -> mismatches x y = mismatches y x.
Proof.
  intros y E. unfold mismatches. rewrite E. f_equal. apply filter_ext. intro i. f_equal. unfold eqb. destruct (eq_dec (nth_error x i) (nth_error y i)), (eq_dec (nth_error y i) (nth_error x i)); congruence.
Qed.
Lemma mismatches_tri x : forall y z, List.length x = List.length y -> (mismatches x z <= mismatches x y + mismatches y z)%nat.
Proof.
  intros y z E. unfold mismatches. rewrite <- E. generalize (seq 0 (List.length x)) as l. intro l. induction l as [|i l IH]; [reflexivity|]. cbn [filter].
  destruct (eqb (nth_error x i) (nth_error z i)) eqn:A, (eqb (nth_error x i) (nth_error y i)) eqn:B, (eqb (nth_error y i) (nth_error z i)) eqn:C; cbn [negb List.length]; try lia.
  exfalso. rewrite eqb_eq in B, C. apply eqb_neq in A. congruence.
Qed.

(** deviation-scaled distance *)
Lemma mad_value x y mad d : mad_distance x y mad = Ok d -> d = qsum (map (scaled_gap x y mad) (seq 0 (List.length mad))).
Proof.
  unfold mad_distance. intro H. pose (Inv := fun (n : nat) (v : Qc) => v = qsum (map (scaled_gap x y mad) (seq 0 n))).
  match type of H with foldM ?f ?a _ = _ => apply (@foldM_seq _ Inv f (List.length mad) 0 a d) in H end; [exact H| |reflexivity].
  intros i v v' I V S. unfold Inv in *. rewrite seq_S, map_app, qsum_app. cbn [map Nat.add]. rewrite qsum_cons, qsum_nil. subst v. unfold scaled_gap at 2.
  unfold lget in S. destruct (nth_error mad i) as [m|] eqn:M; [|discriminate]. cbn [ret_opt bind] in S. rewrite (nth_error_nth _ _ 0 M). change (qeqb m 0) with (eqb m 0) in S.
  destruct (eqb m 0); [injection S as <-; ring|].
  destruct (nth_error x i) as [a|] eqn:A; [|discriminate]. cbn [ret_opt bind] in S. destruct (nth_error y i) as [b|] eqn:B; [|discriminate]. cbn [ret_opt bind] in S.
  rewrite (nth_error_nth _ _ 0 A), (nth_error_nth _ _ 0 B). injection S as <-. ring.
Qed.
Lemma mad_total x y mad : (List.length mad <= List.length x)%nat -> (List.length mad <= List.length y)%nat -> exists d, mad_distance x y mad = Ok d.
Proof.
  intros X Y. unfold mad_distance.
  match goal with |- exists d, foldM ?f ?a ?l = Ok d => destruct (@foldM_total _ _ (fun _ => True) f l a) as (d & D & _); [|exact I|exists d; exact D] end.
  intros v i I _. apply in_seq in I. unfold lget.
  destruct (nth_error mad i) as [m|] eqn:M; [|apply nth_error_None in M; lia]. cbn [ret_opt bind]. destruct (qeqb m 0); [eexists; split; [reflexivity|exact Logic.I]|].
  destruct (nth_error x i) as [a|] eqn:A; [|apply nth_error_None in A; lia]. cbn [ret_opt bind]. destruct (nth_error y i) as [b|] eqn:B; [|apply nth_error_None in B; lia]. cbn [ret_opt bind].
  eexists; split; [reflexivity|exact Logic.I].
Qed.
Lemma gap_nonneg x y mad i : (forall m, In m mad -> 0 <= m) -> 0 <= scaled_gap x y mad i.
Proof.
  intro H. unfold scaled_gap. destruct (eqb (nth i mad 0) 0) eqn:E; [apply Qcle_refl|]. apply eqb_neq in E.
  assert (P : 0 < nth i mad 0).
  { destruct (nth_in_or_default i mad 0) as [I|Z]; [|contradiction]. specialize (H _ I). destruct (Qc_neq_lt E); [exfalso; qlra|assumption]. }
  apply Qcle_div; [assumption|]. rewrite Qcmult_0_l. apply qabs_nonneg.
Qed.
Lemma gap_sym x y mad i : scaled_gap x y mad i = scaled_gap y x mad i.
Proof. unfold scaled_gap. rewrite qabs_sym. reflexivity. Qed.
Lemma gap_tri x y z mad i : (forall m, In m mad -> 0 <= m) -> scaled_gap x z mad i <= scaled_gap x y mad i + scaled_gap y z mad i.
Proof.
  intro H. unfold scaled_gap. destruct (eqb (nth i mad 0) 0) eqn:E; [qlra|]. apply eqb_neq in E.
  assert (P : 0 < nth i mad 0).
  { destruct (nth_in_or_default i mad 0) as [I|Z]; [|contradiction]. specialize (H _ I). destruct (Qc_neq_lt E); [exfalso; qlra|assumption]. }
  apply Qcdiv_le; [assumption|]. rewrite Qcmult_plus_distr_l, !Qcdiv_mult by assumption. apply qabs_tri.
Qed.
Lemma gap_zero x y mad i : (forall m, In m mad -> 0 <= m) -> (scaled_gap x y mad i = 0 <-> (nth i mad 0 = 0 \/ nth i x 0 = nth i y 0)).
Proof.
  intro H. unfold scaled_gap. destruct (eqb (nth i mad 0) 0) eqn:E; [rewrite eqb_eq in E; tauto|]. apply eqb_neq in E.
  rewrite Qcdiv_eq by assumption. rewrite Qcmult_0_l, qabs_zero. split; [right; qlra|intros [A|A]; [contradiction|qlra]].
Qed.
Lemma qsum_zero A (f : A -> Qc) l : (forall x, In x l -> 0 <= f x) -> (qsum (map f l) = 0 <-> forall x, In x l -> f x = 0).
Proof.
  intro P. split; intro H.
  - intros x I. symmetry. refine (@qsum_le_eq _ (fun _ => 0) f l P _ x I). rewrite H. clear. induction l as [|a l IH]; [reflexivity|]. cbn [map]. rewrite qsum_cons, IH. ring.
  - induction l as [|a l IH]; [reflexivity|]. cbn [map]. rewrite qsum_cons, IH, H; [ring|left; reflexivity|intros; apply P; right; assumption|intros; apply H; right; assumption].
Qed.

(** variances *)
Lemma qsum_map2_minus l l' : List.length l = List.length l' -> qsum (map2 Qcminus l l') = qsum l - qsum l'.
Proof.
  revert l'. induction l as [|x l IH]; intros [|y l'] H; try discriminate; [cbn [map2]; rewrite !qsum_nil; ring|]. cbn [map2]. rewrite !qsum_cons, IH by (cbn in H; congruence). ring.
Qed.
(** the sum of squared deviations *)
Definition dev2 (c : Qc) (l : list Qc) : Qc := qsum (map (fun v => (v - c) * (v - c)) l).
Lemma dev2_cons c a l : dev2 c (a :: l) = (a - c) * (a - c) + dev2 c l. Proof. reflexivity. Qed.
Lemma dev2_nonneg c l : 0 <= dev2 c l.
Proof. apply qsum_nonneg. apply Forall_forall. intros v I. apply in_map_iff in I. destruct I as (w & <- & _). apply sq_nonneg. Qed.
Lemma dev2_zero c l : dev2 c l = 0 <-> forall v, In v l -> v = c.
Proof.
  unfold dev2. rewrite qsum_zero by (intros; apply sq_nonneg). split; intros H v I; specialize (H v I).
  - apply Qcmult_integral in H. destruct H; qlra.
  - subst. ring.
Qed.
Lemma dev2_diff c c' x : forall y, List.length x = List.length y -> dev2 (c - c') (map2 Qcminus x y) <= qz 2 * (dev2 c x + dev2 c' y).
Proof.
  induction x as [|a x IH]; intros [|b y] H; try discriminate.
  cbn [map2]. rewrite !dev2_cons. assert (IH' := IH y (f_equal pred H)). clear IH.
  assert (Q := sq_nonneg ((a - c) + (b - c'))).
  assert (E : (a - b - (c - c')) * (a - b - (c - c')) = qz 2 * ((a - c) * (a - c) + (b - c') * (b - c')) - ((a - c) + (b - c')) * ((a - c) + (b - c'))).
  { unfold qz. ring_simplify. change (Q2Qc (inject_Z 2)) with (1 + 1). ring. }
  rewrite E. generalize dependent ((a - c + (b - c')) * (a - c + (b - c'))). generalize dependent (dev2 (c - c') (map2 Qcminus x y)). intros d1 D q Q _.
  generalize dependent ((a - c) * (a - c)). generalize ((b - c') * (b - c')). generalize dependent (dev2 c x). generalize (dev2 c' y). intros. unfold qz in *. qlra.
Qed.
Lemma variance_dev x v : variance x = Some v -> exists m, qmean x = Some m /\ x <> [] /\ v = dev2 m x / qn (List.length x) /\ m = qsum x / qn (List.length x).
Proof.
  unfold variance. destruct (qmean x) as [m|] eqn:M; [|discriminate]. intro H. exists m. split; [reflexivity|]. destruct x as [|a x]; [discriminate|]. split; [discriminate|].
  split; [|cbn [qmean] in M; congruence]. cbn [map qmean] in H. unfold dev2. cbn [map]. assert (L : List.length (map (fun x0 => (x0 - m) * (x0 - m)) x) = List.length x) by apply map_length. cbn [List.length] in *. rewrite L in H. congruence.
Qed.
Lemma variance_some x : x <> [] -> exists v, variance x = Some v.
Proof. intro H. destruct (variance x) as [v|] eqn:E; [eauto|]. apply variance_none in E. contradiction. Qed.
Lemma len_pos A (l : list A) : l <> [] -> 0 < qn (List.length l).
Proof. destruct l; [contradiction|intros _; apply qn_pos; cbn; lia]. Qed.
Lemma variance_zero x v : variance x = Some v -> (v = 0 <-> constant x).
Proof.
  intro V. destruct (variance_dev _ V) as (m & M & N & E & EM). assert (P := len_pos N). rewrite E. rewrite Qcdiv_eq by (intro Z; rewrite Z in P; qlra). rewrite Qcmult_0_l, dev2_zero. split; intro H.
  - intros a b A B. rewrite (H a A), (H b B). reflexivity.
  - intros w W. rewrite EM. symmetry. apply Qcdiv_eq; [intro Z; rewrite Z in P; qlra|].
    assert (S : x = map (fun _ => w) x). { clear - H W. assert (G : forall l, (forall a, In a l -> a = w) -> l = map (fun _ => w) l). { clear. induction l as [|a l IH]; intro H; [reflexivity|]. cbn. f_equal; [apply H; left; reflexivity|apply IH; intros; apply H; right; assumption]. } apply G. intros a A. apply H; assumption. }
    rewrite S at 1. rewrite qsum_const. ring.
Qed.
Lemma shift_minus x y c : shifted x y c -> map2 Qcminus x y = map (fun _ => - c) x.
Proof. unfold shifted. intros ->. induction x as [|a x IH]; [reflexivity|]. cbn [map map2]. rewrite IH. f_equal. ring. Qed.
Lemma minus_const x : forall y c, List.length x = List.length y -> (forall d, In d (map2 Qcminus x y) -> d = - c) -> shifted x y c.
Proof.
  unfold shifted. induction x as [|a x IH]; intros [|b y] c L H; try discriminate; [reflexivity|]. cbn [map map2] in *. f_equal.
  - assert (E : a - b = - c) by (apply H; left; reflexivity). qlra.
  - apply IH; [cbn in L; congruence|]. intros; apply H; right; assumption.
Qed.
Lemma normalized_spec x y r : normalized_euclidean x y = Ok r ->
  List.length x = List.length y /\
  (r = None <-> constant x /\ constant y) /\
  forall d, r = Some d -> 0 <= d /\ d <= 1 /\ (d = 0 <-> exists c, shifted x y c).
Proof.
  unfold normalized_euclidean. destruct (Nat.eqb_spec (List.length x) (List.length y)) as [L|L]; [|discriminate]. cbn [negb]. intro H. assert (R : r = match variance (map2 Qcminus x y), variance x, variance y with
     | Some d, Some vx, Some vy => if qeqb (vx + vy) 0 then None else Some (qc 1 2 * d / (vx + vy))
     | _, _, _ => None end) by (symmetry; exact (f_equal (fun z => match z with Ok w => w | Err _ => None end) H)). clear H. split; [assumption|].
  destruct x as [|a x].
  - destruct y; [|discriminate]. cbn in R. subst r. split; [|discriminate]. split; [|reflexivity]. intros _. split; intros ? ? [].
  - destruct (@variance_some (a :: x)) as (vx & VX); [discriminate|]. destruct (@variance_some y) as (vy & VY); [destruct y; discriminate|].
    destruct (@variance_some (map2 Qcminus (a :: x) y)) as (vd & VD); [destruct y; discriminate|]. rewrite VX, VY, VD in R.
    assert (PX := variance_nonneg _ VX). assert (PY := variance_nonneg _ VY). assert (PD := variance_nonneg _ VD).
    assert (ZX := variance_zero _ VX). assert (ZY := variance_zero _ VY). assert (ZD := variance_zero _ VD).
    destruct (qeqb_spec (vx + vy) 0) as [Z|Z].
    + subst r. split; [|discriminate]. split; [|reflexivity]. intros _. split; [apply ZX|apply ZY]; qlra.
    + subst r. split.
      * split; [discriminate|]. intros (CX & CY). exfalso. apply Z. rewrite (proj2 ZX CX), (proj2 ZY CY). ring.
      * intros d D. injection D as <-. assert (P : 0 < vx + vy). { destruct (Qc_neq_lt Z) as [B|B]; [exfalso; qlra|assumption]. }
        assert (H2 : 0 < qc 1 2) by reflexivity.
        split; [apply Qcle_div; [assumption|rewrite Qcmult_0_l; apply Qcmult_nonneg; [apply Qclt_le_weak|]; assumption]|]. split.
        -- apply Qcdiv_le; [assumption|].
           destruct (variance_dev _ VX) as (mx & MX & NX & EX & EMX). destruct (variance_dev _ VY) as (my & MY & NY & EY & EMY). destruct (variance_dev _ VD) as (md & MD & ND & ED & EMD).
           assert (LD : List.length (map2 Qcminus (a :: x) y) = List.length (a :: x)) by (rewrite map2_length, <- L; apply Nat.min_id).
           assert (PN := len_pos NX). rewrite LD in ED, EMD. rewrite <- L in EY, EMY.
           assert (NZ : qn (List.length (a :: x)) <> 0) by (intro Q; rewrite Q in PN; qlra).
           assert (EMD' : md = mx - my). { rewrite EMD, EMX, EMY, qsum_map2_minus by assumption. field. assumption. }
           rewrite EMD' in ED. clear EMD EMD' MD. assert (B := dev2_diff mx my (a :: x) y L). rewrite EX, EY, ED. remember (qn (List.length (a :: x))) as n eqn:En. clear En.
           assert (G : qc 1 2 * dev2 (mx - my) (map2 Qcminus (a :: x) y) <= dev2 mx (a :: x) + dev2 my y). { clear - B. revert B. generalize (dev2 (mx - my) (map2 Qcminus (a :: x) y)) (dev2 mx (a :: x)) (dev2 my y). intros p q r B. assert (T : qz 2 = 1 + 1) by (apply Qc_is_canon; reflexivity). rewrite T in B. unfold qc. qlra. }
           replace (qc 1 2 * (dev2 (mx - my) (map2 Qcminus (a :: x) y) / n)) with (qc 1 2 * dev2 (mx - my) (map2 Qcminus (a :: x) y) / n) by (field; assumption).
           replace (1 * (dev2 mx (a :: x) / n + dev2 my y / n)) with ((dev2 mx (a :: x) + dev2 my y) / n) by (field; assumption).
           apply Qcdiv_le; [assumption|]. rewrite Qcdiv_mult by assumption. assumption.
        -- rewrite Qcdiv_eq by assumption. rewrite Qcmult_0_l. split.
           ++ intro Q. apply Qcmult_integral in Q. destruct Q as [Q|Q]; [discriminate|]. apply ZD in Q. exists (- (a - hd 0 y)). apply minus_const; [assumption|].
              intros d I. rewrite Qcopp_involutive. apply Q; [assumption|]. destruct y; [discriminate|left; reflexivity].
           ++ intros (c & S). assert (C : constant (map2 Qcminus (a :: x) y)). { rewrite (shift_minus S). intros u v U V. apply in_map_iff in U, V. destruct U as (? & <- & _), V as (? & <- & _). reflexivity. }
              apply ZD in C. rewrite C. ring.
Qed.
Lemma minus_opp x : forall y, List.length x = List.length y -> map2 Qcminus x y = map Qcopp (map2 Qcminus y x).
Proof. induction x as [|a x IH]; intros [|b y] H; try discriminate; [reflexivity|]. cbn [map2 map]. rewrite <- IH by (cbn in H; congruence). f_equal. ring. Qed.
Lemma variance_opp x : variance (map Qcopp x) = variance x.
Proof.
  destruct x as [|a x]; [reflexivity|]. destruct (@variance_some (a :: x)) as (v & V); [discriminate|]. destruct (@variance_some (map Qcopp (a :: x))) as (w & W); [discriminate|]. rewrite V, W. f_equal.
  destruct (variance_dev _ V) as (m & _ & N & E & EM). destruct (variance_dev _ W) as (k & _ & _ & F & FM). rewrite map_length in F, FM. subst v w. f_equal.
  assert (K : k = - m). { rewrite EM, FM. assert (S : forall l, qsum (map Qcopp l) = - qsum l). { clear. induction l as [|b l IH]; [reflexivity|]. cbn [map]. rewrite !qsum_cons, IH. ring. } rewrite S. field. assert (P := len_pos N). intro Q. rewrite Q in P. qlra. }
  rewrite K. unfold dev2. rewrite map_map. f_equal. apply map_ext. intro b. ring.
Qed.
Lemma normalized_sym x y : normalized_euclidean x y = normalized_euclidean y x.
Proof.
  unfold normalized_euclidean. rewrite (Nat.eqb_sym (List.length y)). destruct (Nat.eqb_spec (List.length x) (List.length y)) as [L|L]; [|reflexivity]. cbn [negb]. apply (f_equal (@Ok _)).
  rewrite (minus_opp x y L), variance_opp. destruct (variance (map2 Qcminus y x)), (variance x), (variance y); try reflexivity. rewrite (Qcplus_comm q1 q0). reflexivity.
Qed.
Lemma normalized_total x y : List.length x = List.length y -> exists r, normalized_euclidean x y = Ok r.
Proof. intro L. unfold normalized_euclidean. rewrite L, Nat.eqb_refl. cbn [negb]. eexists. reflexivity. Qed.
