(** * Proofs about fuzzy sets (C01, C05-C10) *)
From Verif Require Import Prelude M_Fuzzy.
Set Implicit Arguments.

Definition valid (s : cset) : Prop := pa s <= pb s /\ pb s <= pc s.
Definition tric (s : cset) (x : Qc) : Qc := tri (pa s) (pb s) (pc s) x.

Lemma valid_points_spec a b c : valid_points a b c = true <-> a <= b /\ b <= c.
Proof. unfold valid_points. rewrite andb_true_iff, !qleb_le. tauto. Qed.

Lemma membership_valid s x : valid s -> membership (FC s) (CNum x) = Ok (tric s x).
Proof.
  intros [H1 H2]. simpl. unfold trimf.
  rewrite (proj2 (valid_points_spec _ _ _)); auto.
Qed.
Lemma membership_Ok s x d : membership (FC s) (CNum x) = Ok d -> valid s /\ d = tric s x.
Proof.
  simpl. unfold trimf. destruct (valid_points (pa s) (pb s) (pc s)) eqn:E; [|discriminate].
  intro H; injection H as <-. apply valid_points_spec in E. split; [exact E|reflexivity].
Qed.
Lemma membership_invalid s x : ~ valid s -> membership (FC s) (CNum x) = Err AssertionError.
Proof.
  intro H. simpl. unfold trimf. destruct (valid_points (pa s) (pb s) (pc s)) eqn:E; [|reflexivity].
  apply valid_points_spec in E. contradiction.
Qed.

(** The shape of the triangle, by region. *)
Lemma tri_peak a b c : tri a b c b = 1.
Proof. unfold tri. rewrite qeqb_refl. reflexivity. Qed.
Lemma tri_left a b c x : a < x -> x < b -> tri a b c x = (x - a) / (b - a).
Proof.
  intros H1 H2. unfold tri.
  destruct (qeqb_spec x b) as [->|_]; [exfalso; qlra|].
  destruct (qeqb_spec a b) as [->|_]; [exfalso; qlra|].
  rewrite (proj2 (qltb_lt a x)), (proj2 (qltb_lt x b)) by assumption. reflexivity.
Qed.
Lemma tri_right a b c x : b < x -> x < c -> tri a b c x = (c - x) / (c - b).
Proof.
  intros H1 H2. unfold tri.
  destruct (qeqb_spec x b) as [->|_]; [exfalso; qlra|].
  rewrite (proj2 (qltb_ge x b)) by qlra. rewrite !andb_false_r.
  destruct (qeqb_spec b c) as [->|_]; [exfalso; qlra|].
  rewrite (proj2 (qltb_lt b x)), (proj2 (qltb_lt x c)) by assumption. reflexivity.
Qed.
Lemma tri_out a b c x : a <= b -> b <= c -> x <> b -> (x <= a \/ c <= x) -> tri a b c x = 0.
Proof.
  intros Ha Hc Hx Ho. unfold tri.
  destruct (qeqb_spec x b) as [->|_]; [contradiction|].
  destruct Ho as [Ho|Ho].
  - rewrite (proj2 (qltb_ge a x)) by assumption.
    rewrite (proj2 (qltb_ge b x)) by qlra. rewrite !andb_false_l, !andb_false_r. reflexivity.
  - rewrite (proj2 (qltb_ge x c)) by assumption.
    rewrite (proj2 (qltb_ge x b)) by qlra. rewrite !andb_false_r. reflexivity.
Qed.

(** [tri] by cases *)
Lemma tri_cases a b c x : a <= b -> b <= c ->
  (x = b /\ tri a b c x = 1) \/
  (a < x /\ x < b /\ tri a b c x = (x - a) / (b - a)) \/
  (b < x /\ x < c /\ tri a b c x = (c - x) / (c - b)) \/
  (x <> b /\ (x <= a \/ c <= x) /\ tri a b c x = 0).
Proof.
  intros Ha Hc. destruct (Qc_eq_dec x b) as [->|Hx].
  - left. split; [reflexivity|apply tri_peak].
  - right. destruct (Qc_neq_lt Hx) as [L|G].
    + destruct (Qclt_le_dec a x) as [L2|L2].
      * left. repeat split; try assumption. apply tri_left; assumption.
      * right; right. repeat split; auto. apply tri_out; auto.
    + destruct (Qclt_le_dec x c) as [L2|L2].
      * right; left. repeat split; try assumption. apply tri_right; assumption.
      * right; right. repeat split; auto. apply tri_out; auto.
Qed.

Lemma tri_01 a b c x : a <= b -> b <= c -> 0 <= tri a b c x /\ tri a b c x <= 1.
Proof.
  intros Ha Hc. destruct (tri_cases x Ha Hc) as [(_&->)|[(H1&H2&->)|[(H1&H2&->)|(_&_&->)]]].
  - split; qlra.
  - apply Qcdiv_01; qlra.
  - apply Qcdiv_01; qlra.
  - split; qlra.
Qed.

(** alpha-cut characterisation, the key fact for C05, C06, C20 *)
Lemma tri_ge_cut a b c x t : a <= b -> b <= c -> 0 < t -> t <= 1 ->
  (t <= tri a b c x <-> a + (b - a) * t <= x /\ x <= c - (c - b) * t).
Proof.
  intros Ha Hc Ht Ht1.
  destruct (tri_cases x Ha Hc) as [(->&->)|[(H1&H2&->)|[(H1&H2&->)|(Hn&Ho&->)]]].
  - split; [intros _; split; qnra|intros _; assumption].
  - rewrite Qcle_div by qlra. split; [intro H; split; qnra|intros [H _]; qlra].
  - rewrite Qcle_div by qlra. split; [intro H; split; qnra|intros [_ H]; qlra].
  - split; [intro; exfalso; qlra|].
    intros [L R]. exfalso. destruct Ho as [Ho|Ho].
    + assert ((b - a) * t <= 0) by qlra.
      assert (a = b). { destruct (Qcle_lt_or_eq _ _ Ha) as [Hlt|E]; [|exact E]. exfalso.
        assert (0 < (b - a) * t) by (apply Qcmult_pos; qlra). qlra. }
      subst b. apply Hn. apply Qcle_antisym; [exact Ho|]. qlra.
    + assert (b = c). { destruct (Qcle_lt_or_eq _ _ Hc) as [Hlt|E]; [|exact E]. exfalso.
        assert (0 < (c - b) * t) by (apply Qcmult_pos; qlra). qlra. }
      subst c. apply Hn. apply Qcle_antisym; [|exact Ho]. qlra.
Qed.

Lemma tri_one a b c x : a <= b -> b <= c -> (tri a b c x = 1 <-> x = b).
Proof.
  intros Ha Hc. split; [|intros ->; apply tri_peak].
  intro H. assert (1 <= tri a b c x) as H' by (rewrite H; apply Qcle_refl).
  apply tri_ge_cut in H'; [|assumption|assumption|qlra|qlra]. destruct H'. qlra.
Qed.
Lemma tri_pos a b c x : a <= b -> b <= c -> (0 < tri a b c x <-> x = b \/ (a < x /\ x < c)).
Proof.
  intros Ha Hc.
  destruct (tri_cases x Ha Hc) as [(->&->)|[(H1&H2&->)|[(H1&H2&->)|(Hn&Ho&->)]]].
  - split; [auto|intros _; qlra].
  - rewrite Qclt_div by qlra. split; [intros _; right; split; qlra|intros _; qlra].
  - rewrite Qclt_div by qlra. split; [intros _; right; split; qlra|intros _; qlra].
  - split; [intro; exfalso; qlra|]. intros [E|[L R]]; [contradiction|].
    exfalso. destruct Ho; qlra.
Qed.
Lemma tri_mono_left a b c x y : a <= b -> b <= c -> x <= y -> y <= b -> tri a b c x <= tri a b c y.
Proof.
  intros Ha Hc Hxy Hy. pose proof (tri_01 x Ha Hc) as [X0 X1]. pose proof (tri_01 y Ha Hc) as [Y0 Y1].
  destruct (Qclt_le_dec 0 (tri a b c x)) as [P|N]; [|qlra].
  apply tri_ge_cut; try assumption.
  assert (tri a b c x <= tri a b c x) as R by apply Qcle_refl.
  apply tri_ge_cut in R; try assumption. destruct R as [R1 R2]. split; qnra.
Qed.
Lemma tri_mono_right a b c x y : a <= b -> b <= c -> b <= x -> x <= y -> tri a b c y <= tri a b c x.
Proof.
  intros Ha Hc Hb Hxy. pose proof (tri_01 x Ha Hc) as [X0 X1]. pose proof (tri_01 y Ha Hc) as [Y0 Y1].
  destruct (Qclt_le_dec 0 (tri a b c y)) as [P|N]; [|qlra].
  apply tri_ge_cut; try assumption.
  assert (tri a b c y <= tri a b c y) as R by apply Qcle_refl.
  apply tri_ge_cut in R; try assumption. destruct R as [R1 R2]. split; qnra.
Qed.

Lemma C01_trimf_shape s x : valid s ->
  exists d, membership (FC s) (CNum x) = Ok d /\ 0 <= d /\ d <= 1 /\ (d = 1 <-> x = pb s) /\
    (pa s < x -> x < pb s -> d = (x - pa s) / (pb s - pa s)) /\
    (pb s < x -> x < pc s -> d = (pc s - x) / (pc s - pb s)) /\
    (x <> pb s -> x <= pa s \/ pc s <= x -> d = 0).
Proof.
  intros Hv. pose proof Hv as [Ha Hc]. exists (tric s x). rewrite membership_valid by assumption.
  pose proof (tri_01 x Ha Hc) as [? ?].
  repeat split; try assumption.
  - apply tri_one; assumption.
  - apply tri_one; assumption.
  - intros; apply tri_left; assumption.
  - intros; apply tri_right; assumption.
  - intros; apply tri_out; assumption.
Qed.
Lemma C01_trimf_monotone s x y dx dy :
  membership (FC s) (CNum x) = Ok dx -> membership (FC s) (CNum y) = Ok dy ->
  (x <= y -> y <= pb s -> dx <= dy) /\ (pb s <= x -> x <= y -> dy <= dx).
Proof.
  intros Hx Hy. apply membership_Ok in Hx. apply membership_Ok in Hy.
  destruct Hx as [[Ha Hc] ->]. destruct Hy as [_ ->]. split; intros.
  - apply tri_mono_left; assumption.
  - apply tri_mono_right; assumption.
Qed.

(* ------------------------------------------------------------------ *)
(** C05 *)
Lemma alpha_cut_ok s cut : 0 <= cut -> cut <= 1 ->
  alpha_cut s cut = Ok (pa s + (pb s - pa s) * cut, pc s - (pc s - pb s) * cut).
Proof.
  intros. unfold alpha_cut. rewrite (proj2 (qltb_ge cut 0)), (proj2 (qltb_ge 1 cut)) by assumption.
  reflexivity.
Qed.
Lemma alpha_cut_err s cut : cut < 0 \/ 1 < cut -> alpha_cut s cut = Err ValueError.
Proof.
  intros [H|H]; unfold alpha_cut.
  - rewrite (proj2 (qltb_lt cut 0)) by assumption. reflexivity.
  - rewrite (proj2 (qltb_lt 1 cut)) by assumption. rewrite orb_true_r. reflexivity.
Qed.
Lemma C05_cut_exact s cut x d : 0 < cut -> cut <= 1 -> membership (FC s) (CNum x) = Ok d ->
  exists l r, alpha_cut s cut = Ok (l, r) /\ (l <= x /\ x <= r <-> cut <= d).
Proof.
  intros H0 H1 Hm. apply membership_Ok in Hm. destruct Hm as [[Ha Hc] ->].
  rewrite alpha_cut_ok by qlra. eexists _, _. split; [reflexivity|].
  symmetry. apply tri_ge_cut; assumption.
Qed.
Lemma C05_cut_zero s : alpha_cut s 0 = Ok (pa s, pc s).
Proof. rewrite alpha_cut_ok by qlra. do 2 f_equal; ring. Qed.
Lemma C05_cut_one s : alpha_cut s 1 = Ok (pb s, pb s).
Proof. rewrite alpha_cut_ok by qlra. do 2 f_equal; ring. Qed.
Lemma C05_cut_nested s c1 c2 l1 r1 l2 r2 : valid s -> c1 <= c2 ->
  alpha_cut s c1 = Ok (l1, r1) -> alpha_cut s c2 = Ok (l2, r2) -> l1 <= l2 /\ l2 <= r2 /\ r2 <= r1.
Proof.
  intros [Ha Hc] Hle H1 H2.
  assert (forall cut p, alpha_cut s cut = Ok p -> 0 <= cut /\ cut <= 1) as G.
  { intros cut p. unfold alpha_cut. destruct (qltb_spec cut 0), (qltb_spec 1 cut); simpl; try discriminate. auto. }
  destruct (G _ _ H1), (G _ _ H2).
  rewrite alpha_cut_ok in H1, H2 by assumption. injection H1 as <- <-. injection H2 as <- <-.
  repeat split; qnra.
Qed.

(* ------------------------------------------------------------------ *)
(** C06 *)
Definition up (s : cset) : segment := ((pa s, 0), (pb s, 1)).
Definition down (s : cset) : segment := ((pb s, 1), (pc s, 0)).

Lemma line_intersect_01 A B : 0 <= line_intersect A B /\ line_intersect A B <= 1.
Proof.
  unfold line_intersect. destruct (eqb A B); [split; qlra|].
  destruct A as [[? ?] [? ?]], B as [[? ?] [? ?]].
  destruct (qeqb _ 0); [split; qlra|].
  match goal with |- context [qltb ?y 0] => generalize y end. intro y.
  destruct (qltb_spec y 0); simpl; [split; qlra|]. destruct (qltb_spec 1 y); [split; qlra|]. auto.
Qed.

Lemma eqb_segment_cases (A B : segment) : A = B -> eqb A B = true.
Proof. intros ->; apply eqb_refl. Qed.

(** a positive crossing value is witnessed by a point where both degrees reach it *)
Lemma two_rising_point a b c a' b' c' y : a <= b -> b <= c -> a' <= b' -> b' <= c' ->
  line_intersect ((a, 0), (b, 1)) ((a', 0), (b', 1)) = y -> 0 < y ->
  exists x, y <= tri a b c x /\ y <= tri a' b' c' x.
Proof.
  intros Ha Hc Ha' Hc' E Hy. unfold line_intersect in E.
  destruct (eqb _ _) eqn:Eq.
  - apply eqb_eq in Eq. injection Eq as -> ->. subst y. exists b'.
    rewrite !tri_peak. split; apply Qcle_refl.
  - destruct (qeqb_spec ((a - b) * (0 - 1) - (0 - 1) * (a' - b')) 0) as [D|D]; [exfalso; qlra|].
    match type of E with context [qltb ?t 0] => remember t as y' eqn:Ey end.
    destruct (qltb_spec y' 0); simpl in E; [exfalso; qlra|].
    destruct (qltb_spec 1 y'); [exfalso; qlra|]. subst y.
    assert (F : a + (b - a) * y' = a' + (b' - a') * y').
    { rewrite Ey. field. intro C. apply D. clear -C. qlra. }
    exists (a + (b - a) * y'). split; apply tri_ge_cut; try assumption; split; solve [qnra | rewrite F; apply Qcle_refl].
Qed.
Lemma two_falling_point a b c a' b' c' y : a <= b -> b <= c -> a' <= b' -> b' <= c' ->
  line_intersect ((b, 1), (c, 0)) ((b', 1), (c', 0)) = y -> 0 < y ->
  exists x, y <= tri a b c x /\ y <= tri a' b' c' x.
Proof.
  intros Ha Hc Ha' Hc' E Hy. unfold line_intersect in E.
  destruct (eqb _ _) eqn:Eq.
  - apply eqb_eq in Eq. injection Eq as -> ->. subst y. exists b'.
    rewrite !tri_peak. split; apply Qcle_refl.
  - destruct (qeqb_spec ((b - c) * (1 - 0) - (1 - 0) * (b' - c')) 0) as [D|D]; [exfalso; qlra|].
    match type of E with context [qltb ?t 0] => remember t as y' eqn:Ey end.
    destruct (qltb_spec y' 0); simpl in E; [exfalso; qlra|].
    destruct (qltb_spec 1 y'); [exfalso; qlra|]. subst y.
    assert (F : c - (c - b) * y' = c' - (c' - b') * y').
    { rewrite Ey. field. intro C. apply D. clear -C. qlra. }
    exists (c - (c - b) * y'). split; apply tri_ge_cut; try assumption; split; solve [qnra | rewrite F; apply Qcle_refl].
Qed.
Lemma falling_rising_point a b c a' b' c' y : a <= b -> b <= c -> a' <= b' -> b' <= c' ->
  line_intersect ((b, 1), (c, 0)) ((a', 0), (b', 1)) = y -> 0 < y ->
  exists x, y <= tri a b c x /\ y <= tri a' b' c' x.
Proof.
  intros Ha Hc Ha' Hc' E Hy. unfold line_intersect in E.
  destruct (eqb _ _) eqn:Eq; [apply eqb_eq in Eq; discriminate|].
  destruct (qeqb_spec ((b - c) * (0 - 1) - (1 - 0) * (a' - b')) 0) as [D|D]; [exfalso; qlra|].
  match type of E with context [qltb ?t 0] => remember t as y' eqn:Ey end.
  destruct (qltb_spec y' 0); simpl in E; [exfalso; qlra|].
  destruct (qltb_spec 1 y'); [exfalso; qlra|]. subst y.
  assert (F : c - (c - b) * y' = a' + (b' - a') * y').
  { rewrite Ey. field. intro C. apply D. clear -C. qlra. }
  exists (c - (c - b) * y'). split; apply tri_ge_cut; try assumption; split; solve [qnra | rewrite F; apply Qcle_refl].
Qed.

Lemma line_intersect_sym A B : line_intersect A B = line_intersect B A.
Proof.
  unfold line_intersect. destruct (eqb A B) eqn:E.
  - apply eqb_eq in E. subst. rewrite eqb_refl. reflexivity.
  - destruct (eqb B A) eqn:E'.
    + apply eqb_eq in E'. subst. rewrite eqb_refl in E. discriminate.
    + destruct A as [[ax1 ay1] [ax2 ay2]], B as [[bx1 by1] [bx2 by2]].
      set (d := (ax1 - ax2) * (by1 - by2) - (ay1 - ay2) * (bx1 - bx2)).
      assert (Ed : (bx1 - bx2) * (ay1 - ay2) - (by1 - by2) * (ax1 - ax2) = - d) by (unfold d; ring).
      rewrite Ed.
      set (n := (ax1 * ay2 - ay1 * ax2) * (by1 - by2) - (ay1 - ay2) * (bx1 * by2 - by1 * bx2)).
      assert (En : (bx1 * by2 - by1 * bx2) * (ay1 - ay2) - (by1 - by2) * (ax1 * ay2 - ay1 * ax2) = - n)
        by (unfold n; ring).
      rewrite En.
      destruct (qeqb_spec d 0) as [D|D].
      * rewrite D. replace (- 0) with 0 by ring. rewrite qeqb_refl. reflexivity.
      * destruct (qeqb_spec (- d) 0) as [D'|D']; [exfalso; apply D; qlra|].
        clear Ed En. clearbody d n. replace (- n / - d) with (n / d) by (field; auto). reflexivity.
Qed.

Lemma intersection_c_sym s o : intersection_c s o = intersection_c o s.
Proof.
  unfold intersection_c. cbv zeta.
  rewrite (line_intersect_sym (pa s, 0, (pb s, 1)) (pa o, 0, (pb o, 1))),
          (line_intersect_sym (pa s, 0, (pb s, 1)) (pb o, 1, (pc o, 0))),
          (line_intersect_sym (pb s, 1, (pc s, 0)) (pa o, 0, (pb o, 1))),
          (line_intersect_sym (pb s, 1, (pc s, 0)) (pb o, 1, (pc o, 0))).
  f_equal. rewrite <- !qmax_assoc. f_equal. apply qmax_comm.
Qed.

Lemma intersection_c_01 s o : 0 <= intersection_c s o /\ intersection_c s o <= 1.
Proof.
  unfold intersection_c; cbv zeta. split.
  - eapply Qcle_trans; [|apply qmax_r]. apply line_intersect_01.
  - repeat apply qmax_lub; apply line_intersect_01.
Qed.

Lemma qmax_choice a b : qmax a b = a \/ qmax a b = b.
Proof. unfold qmax; qcase; auto. Qed.

(** some point attains at least the value *)
Lemma intersection_c_lower s o : valid s -> valid o -> 0 < intersection_c s o ->
  exists x, intersection_c s o <= tric s x /\ intersection_c s o <= tric o x.
Proof.
  intros [Ha Hc] [Ha' Hc']. set (v := intersection_c s o). intro Hv.
  assert (v = line_intersect (up s) (up o) \/ v = line_intersect (up s) (down o) \/
          v = line_intersect (down s) (up o) \/ v = line_intersect (down s) (down o)) as [E|[E|[E|E]]].
  { unfold v, intersection_c; cbv zeta. unfold up, down.
    repeat match goal with |- context [qmax ?a ?b] => destruct (qmax_choice a b) as [->| ->] end; auto. }
  - unfold tric. eapply two_rising_point; eauto.
  - rewrite line_intersect_sym in E.
    destruct (falling_rising_point Ha' Hc' Ha Hc (eq_sym E) Hv) as (x & H1 & H2).
    exists x; auto.
  - eapply falling_rising_point; eauto.
  - eapply two_falling_point; eauto.
Qed.

Lemma peak_lt_upper s o x t : valid s -> valid o -> pb s < pb o ->
  0 < t -> t <= tric s x -> t <= tric o x -> t <= intersection_c s o.
Proof.
  intros [Ha Hc] [Ha' Hc'] Hb Ht H1 H2.
  assert (t <= 1) by (pose proof (tri_01 x Ha Hc) as [? ?]; unfold tric in *; qlra).
  apply tri_ge_cut in H1; try assumption. apply tri_ge_cut in H2; try assumption.
  destruct H1 as [_ H1], H2 as [H2 _].
  assert (K : t * ((pc s - pb s) + (pb o - pa o)) <= pc s - pa o) by qlra.
  apply Qcle_trans with (line_intersect (down s) (up o)).
  - unfold line_intersect, down, up.
    destruct (eqb _ _) eqn:Eq; [apply eqb_eq in Eq; discriminate|].
    set (d := (pb s - pc s) * (0 - 1) - (1 - 0) * (pa o - pb o)).
    assert (Ed : d = (pc s - pb s) + (pb o - pa o)) by (unfold d; ring).
    assert (Dp : 0 < d).
    { rewrite Ed. assert (0 <= pc s - pb s + (pb o - pa o)) by qlra.
      destruct (Qc_eq_dec (pc s - pb s + (pb o - pa o)) 0) as [Z|NZ]; [|destruct (Qc_neq_lt NZ); qlra].
      exfalso. rewrite Z in K. qlra. }
    destruct (qeqb_spec d 0); [exfalso; qlra|].
    set (n := (pb s * 0 - 1 * pc s) * (0 - 1) - (1 - 0) * (pa o * 1 - 0 * pb o)).
    assert (En : n = pc s - pa o) by (unfold n; ring).
    clearbody n d.
    assert (Hy : t <= n / d) by (apply Qcle_div; [exact Dp|rewrite En, Ed; exact K]).
    destruct (qltb_spec (n / d) 0); simpl; [exfalso; qlra|].
    destruct (qltb_spec 1 (n / d)) as [G|]; [|exact Hy].
    exfalso. apply Qclt_div in G; [|exact Dp]. rewrite En, Ed in G. qlra.
  - unfold intersection_c; cbv zeta. fold (up s) (up o) (down s) (down o).
    eapply Qcle_trans; [|apply qmax_l]. apply qmax_r.
Qed.

Lemma peak_eq_one s o : pb s = pb o -> intersection_c s o = 1.
Proof.
  intro E. assert (line_intersect (up s) (up o) = 1) as L.
  { unfold line_intersect, up. rewrite E. destruct (eqb _ _) eqn:Q; [reflexivity|].
    assert (pa s <> pa o). { intro C. rewrite C in Q. rewrite eqb_refl in Q. discriminate. }
    destruct (qeqb_spec ((pa s - pb o) * (0 - 1) - (0 - 1) * (pa o - pb o)) 0) as [D|D].
    - exfalso. apply H. qlra.
    - match goal with |- context [qltb ?t 0] => assert (Hy : t = 1) end.
      { field. intro C. apply H. qlra. }
      rewrite Hy. reflexivity. }
  pose proof (intersection_c_01 s o) as [_ H1].
  apply Qcle_antisym; [exact H1|].
  unfold intersection_c; cbv zeta. fold (up s) (up o) (down s) (down o). rewrite L.
  eapply Qcle_trans; [|apply qmax_l]. eapply Qcle_trans; [|apply qmax_l]. apply qmax_l.
Qed.

Lemma intersection_c_upper s o x t : valid s -> valid o ->
  0 < t -> t <= tric s x -> t <= tric o x -> t <= intersection_c s o.
Proof.
  intros Hs Ho Ht H1 H2. destruct (Qc_dec (pb s) (pb o)) as [[L|G]|E].
  - eapply peak_lt_upper; eassumption.
  - rewrite intersection_c_sym. eapply peak_lt_upper; try eassumption.
  - rewrite peak_eq_one by assumption. destruct Hs as [Ha Hc].
    pose proof (tri_01 x Ha Hc) as [? ?]. unfold tric in *. qlra.
Qed.

Lemma C06_height s o : valid s -> valid o ->
  exists h, intersection (FC s) (FC o) = Ok h /\
    (forall x m n, membership (FC s) (CNum x) = Ok m -> membership (FC o) (CNum x) = Ok n -> qmin m n <= h) /\
    (exists x m n, membership (FC s) (CNum x) = Ok m /\ membership (FC o) (CNum x) = Ok n /\ qmin m n = h).
Proof.
  intros Hs Ho. exists (intersection_c s o). split; [reflexivity|].
  assert (U : forall x, qmin (tric s x) (tric o x) <= intersection_c s o).
  { intro x. destruct (Qclt_le_dec 0 (qmin (tric s x) (tric o x))) as [P|N].
    - eapply intersection_c_upper; eauto; [apply qmin_l|apply qmin_r].
    - eapply Qcle_trans; [exact N|]. apply intersection_c_01. }
  split.
  - intros x m n Hm Hn. apply membership_Ok in Hm. apply membership_Ok in Hn.
    destruct Hm as [_ ->], Hn as [_ ->]. apply U.
  - destruct (Qclt_le_dec 0 (intersection_c s o)) as [P|N].
    + destruct (intersection_c_lower Hs Ho P) as (x & H1 & H2).
      exists x, (tric s x), (tric o x). rewrite !membership_valid by assumption.
      repeat split. apply Qcle_antisym; [apply U|]. apply qmin_glb; assumption.
    + set (x := pa s - 1). exists x, (tric s x), (tric o x). rewrite !membership_valid by assumption.
      repeat split. destruct Hs as [Ha Hc]. destruct Ho as [Ha' Hc'].
      assert (tric s x = 0) as ->.
      { apply tri_out; try assumption; [intro C; unfold x in C; qlra|left; unfold x; qlra]. }
      pose proof (tri_01 x Ha' Hc') as [T0 _].
      pose proof (intersection_c_01 s o) as [I0 _].
      unfold qmin. unfold tric. qcase; qlra.
Qed.
Lemma C06_one s o : valid s -> valid o ->
  (intersection (FC s) (FC o) = Ok 1 <-> pb s = pb o).
Proof.
  intros Hs Ho. simpl. split; [|intro E; rewrite peak_eq_one by assumption; reflexivity].
  intro H. injection H as H. assert (P : 0 < intersection_c s o) by (rewrite H; reflexivity).
  destruct (intersection_c_lower Hs Ho P) as (x & H1 & H2). rewrite H in H1, H2.
  destruct Hs as [Ha Hc], Ho as [Ha' Hc'].
  pose proof (tri_01 x Ha Hc) as [_ ?]. pose proof (tri_01 x Ha' Hc') as [_ ?]. unfold tric in *.
  assert (E1 : tri (pa s) (pb s) (pc s) x = 1) by (apply Qcle_antisym; assumption).
  assert (E2 : tri (pa o) (pb o) (pc o) x = 1) by (apply Qcle_antisym; assumption).
  apply tri_one in E1; try assumption. apply tri_one in E2; try assumption. congruence.
Qed.
Lemma C06_sym s o : intersection s o = intersection o s.
Proof.
  destruct s as [s|n v], o as [o|n' v']; simpl; try reflexivity.
  - rewrite intersection_c_sym. reflexivity.
  - f_equal. unfold eqb.
    destruct (eq_dec n n'), (eq_dec v v'), (eq_dec n' n), (eq_dec v' v); simpl; congruence.
Qed.

(* ------------------------------------------------------------------ *)
(** C07 *)
Definition shift (s : cset) (k : Qc) : cset := mkC (c_name s) (pa s + k) (pb s + k) (pc s + k) (c_point s).

Lemma two_pos : 0 < two. Proof. reflexivity. Qed.
Lemma two_half z : z / two + z / two = z.
Proof. replace two with (1 + 1) by (apply Qc_is_canon; reflexivity). field. intro C; discriminate C. Qed.
Lemma half_le a b : a / two <= b / two <-> a <= b.
Proof.
  rewrite Qcdiv_le by apply two_pos.
  replace (b / two * two) with b by (field; intro C; discriminate C). reflexivity.
Qed.
Lemma half_lt a b : a / two < b / two <-> a < b.
Proof.
  rewrite Qcdiv_lt by apply two_pos.
  replace (b / two * two) with b by (field; intro C; discriminate C). reflexivity.
Qed.

Lemma simmilarity_c_sym s o : simmilarity_c s o = simmilarity_c o s.
Proof.
  unfold simmilarity_c. rewrite orb_comm. rewrite (qmin_comm ((pc s - pb s) / two)),
    (qmax_comm ((pb s - pa s) / two)), (qmax_comm ((pc s - pb s) / two)), (qmin_comm ((pb s - pa s) / two)).
  reflexivity.
Qed.
(** the value can be negative, but stays above -1 *)
Lemma simmilarity_c_bounds s o : - (1) < simmilarity_c s o /\ simmilarity_c s o <= 1.
Proof.
  unfold simmilarity_c; cbv zeta.
  generalize ((pb s - pa s) / two) as m1. generalize ((pc s - pb s) / two) as M1.
  generalize ((pb o - pa o) / two) as m2. generalize ((pc o - pb o) / two) as M2.
  intros M2 m2 M1 m1.
  destruct (qleb_spec M2 m1); simpl; [split; qlra|].
  destruct (qleb_spec M1 m2); simpl; [split; qlra|].
  assert (U : 0 < qmax M1 M2 - qmin m1 m2) by (unfold qmax, qmin; qcase; qlra).
  split.
  - apply Qclt_div; [exact U|]. unfold qmax, qmin; qcase; qlra.
  - apply Qcdiv_le; [exact U|]. unfold qmax, qmin; qcase; qlra.
Qed.
(** proper half-width ranges give a degree *)
Lemma simmilarity_c_nonneg s o :
  pb s - pa s <= pc s - pb s -> pb o - pa o <= pc o - pb o -> 0 <= simmilarity_c s o.
Proof.
  intros H1 H2. rewrite <- half_le in H1, H2. revert H1 H2.
  unfold simmilarity_c; cbv zeta.
  generalize ((pb s - pa s) / two) as m1. generalize ((pc s - pb s) / two) as M1.
  generalize ((pb o - pa o) / two) as m2. generalize ((pc o - pb o) / two) as M2.
  intros M2 m2 M1 m1 H1 H2.
  destruct (qleb_spec M2 m1); simpl; [qlra|].
  destruct (qleb_spec M1 m2); simpl; [qlra|].
  assert (U : 0 < qmax M1 M2 - qmin m1 m2) by (unfold qmax, qmin; qcase; qlra).
  apply Qcle_div; [exact U|]. unfold qmax, qmin; qcase; qlra.
Qed.
Lemma simmilarity_c_shift s o k j : simmilarity_c (shift s k) (shift o j) = simmilarity_c s o.
Proof.
  unfold simmilarity_c, shift; cbn [pa pb pc].
  replace (pb s + k - (pa s + k)) with (pb s - pa s) by ring.
  replace (pc s + k - (pb s + k)) with (pc s - pb s) by ring.
  replace (pb o + j - (pa o + j)) with (pb o - pa o) by ring.
  replace (pc o + j - (pb o + j)) with (pc o - pb o) by ring. reflexivity.
Qed.
Lemma simmilarity_c_self s :
  (pc s - pb s <= pb s - pa s -> simmilarity_c s s = 0) /\
  (pb s - pa s < pc s - pb s -> simmilarity_c s s = 1).
Proof.
  split; intro H.
  - rewrite <- half_le in H. unfold simmilarity_c. rewrite (proj2 (qleb_le _ _)) by exact H. reflexivity.
  - rewrite <- half_lt in H. unfold simmilarity_c; cbv zeta.
    revert H. generalize ((pb s - pa s) / two) as m. generalize ((pc s - pb s) / two) as M. intros M m H.
    rewrite !(proj2 (qleb_gt _ _)) by exact H. simpl. rewrite !qmin_idem, !qmax_idem.
    field. intro C. qlra.
Qed.
Lemma C07_sym s o : simmilarity s o = simmilarity o s.
Proof.
  destruct s as [s|n v], o as [o|n' v']; try reflexivity.
  - simpl. rewrite simmilarity_c_sym. reflexivity.
  - apply C06_sym.
Qed.

(* ------------------------------------------------------------------ *)
(** C08 *)
Lemma jaccard_union_pos a b : qmax (pa a) (pa b) < qmin (pc a) (pc b) ->
  0 < qmax (pc a) (pc b) - qmin (pa a) (pa b).
Proof. unfold qmax, qmin; qcase; intros; qlra. Qed.
Lemma jaccard_sym a b : jaccard a b = jaccard b a.
Proof.
  unfold jaccard. rewrite (intersection_c_sym a b), (qmax_comm (pa a)), (qmin_comm (pc a)),
    (qmax_comm (pc a)), (qmin_comm (pa a)). reflexivity.
Qed.
Lemma jaccard_01 a b : 0 <= jaccard a b /\ jaccard a b <= 1.
Proof.
  unfold jaccard. destruct (qleb_spec (qmin (pc a) (pc b)) (qmax (pa a) (pa b))) as [L|G]; [split; qlra|].
  pose proof (jaccard_union_pos a b G) as U. pose proof (intersection_c_01 a b) as [I0 I1].
  assert (D : 0 <= (qmin (pc a) (pc b) - qmax (pa a) (pa b)) / (qmax (pc a) (pc b) - qmin (pa a) (pa b)) /\
              (qmin (pc a) (pc b) - qmax (pa a) (pa b)) / (qmax (pc a) (pc b) - qmin (pa a) (pa b)) <= 1).
  { apply Qcdiv_01; [|revert G; unfold qmin, qmax; qcase; intros; qlra|exact U]. qlra. }
  destruct D as [D0 D1]. revert D0 D1.
  generalize ((qmin (pc a) (pc b) - qmax (pa a) (pa b)) / (qmax (pc a) (pc b) - qmin (pa a) (pa b))) as r.
  intros r D0 D1. revert I0 I1. generalize (intersection_c a b) as i. intros i I0 I1. split; qnra.
Qed.
Lemma jaccard_disjoint a b : (pc a <= pa b \/ pc b <= pa a) -> jaccard a b = 0.
Proof.
  intro H. unfold jaccard. rewrite (proj2 (qleb_le _ _)); [reflexivity|].
  unfold qmin, qmax; qcase; destruct H; qlra.
Qed.
Lemma jaccard_self a : pa a < pc a -> jaccard a a = 1.
Proof.
  intro H. unfold jaccard. rewrite !qmin_idem, !qmax_idem.
  rewrite (proj2 (qleb_gt _ _)) by exact H. rewrite peak_eq_one by reflexivity.
  field. intro C. qlra.
Qed.
Lemma jaccard_point a : pc a <= pa a -> jaccard a a = 0.
Proof. intro H. apply jaccard_disjoint. auto. Qed.

(* ------------------------------------------------------------------ *)
(** C09 *)
Lemma merge_spec parse show a b x y : valid a -> valid b ->
  parse (c_name a) = Some x -> parse (c_name b) = Some y ->
  exists m, merge parse show a b = Ok m /\ valid m /\
    (pa m <= pa a /\ pa m <= pa b /\ (pa m = pa a \/ pa m = pa b)) /\
    (pc a <= pc m /\ pc b <= pc m /\ (pc m = pc a \/ pc m = pc b)) /\
    pb m + pb m = pb a + pb b /\ c_name m = show ((x + y) / two) /\ c_point m = false.
Proof.
  intros [A1 A2] [B1 B2] Hx Hy. unfold merge. rewrite Hx, Hy. simpl.
  eexists; split; [reflexivity|]. simpl.
  pose proof two_half as E.
  split; [|repeat split; try apply qmin_l; try apply qmin_r; try apply qmax_l; try apply qmax_r].
  - specialize (E (pb a + pb b)). revert E. generalize ((pb a + pb b) / two) as z. intros z E.
    unfold valid; simpl. split; unfold qmin, qmax; qcase; qlra.
  - unfold qmin; qcase; auto.
  - unfold qmax; qcase; auto.
  - apply E.
Qed.
Lemma merge_comm parse show a b : merge parse show a b = merge parse show b a \/
  exists e, merge parse show a b = Err e.
Proof.
  unfold merge. destruct (parse (c_name a)) as [x|]; simpl; [|eauto].
  destruct (parse (c_name b)) as [y|]; simpl; [|eauto]. left.
  rewrite (qmin_comm (pa a)), (qmax_comm (pc a)). do 2 f_equal; [f_equal; f_equal; ring|f_equal; ring].
Qed.
Lemma merge_err parse show a b :
  parse (c_name a) = None \/ parse (c_name b) = None <-> merge parse show a b = Err ValueError.
Proof.
  unfold merge. destruct (parse (c_name a)) as [x|]; simpl; [|tauto].
  destruct (parse (c_name b)) as [y|]; simpl; [|tauto].
  split; [intros [?|?]; discriminate|discriminate].
Qed.
Lemma merge_idem parse show a m : merge parse show a a = Ok m ->
  pa m = pa a /\ pb m = pb a /\ pc m = pc a.
Proof.
  unfold merge. destruct (parse (c_name a)) as [x|]; simpl; [|discriminate].
  intro H. injection H as <-. simpl. rewrite qmin_idem, qmax_idem. repeat split.
  pose proof (two_half (pb a + pb a)) as E. qlra.
Qed.

(* ------------------------------------------------------------------ *)
(** C10 *)
Lemma discrete_degree n v x : membership (FD n v) x = Ok (if eq_dec x v then 1 else 0).
Proof. simpl. unfold eqb. destruct (eq_dec x v); reflexivity. Qed.
Lemma discrete_sum (d : list (string * cell)) x ds :
  NoDup (map snd d) ->
  Forall2 (fun s m => membership s x = Ok m) (discrete_sets d) ds ->
  (In x (map snd d) -> qsum ds = 1) /\ (~ In x (map snd d) -> qsum ds = 0).
Proof.
  revert ds. induction d as [|[n v] d IH]; intros ds Hn HF.
  - inversion HF; subst. split; [intros []|reflexivity].
  - inversion HF as [|s m sl ml Hm Hml]; subst. inversion Hn as [|w wl Hnv Hnd]; subst.
    destruct (IH ml Hnd Hml) as [I1 I2]. rewrite qsum_cons. cbn [map snd].
    simpl in Hm. injection Hm as <-.
    destruct (eqb x v) eqn:E.
    + apply eqb_eq in E. subst v. simpl in Hnv. split.
      * intros _. rewrite I2 by exact Hnv. ring.
      * intro C. exfalso. apply C. left; reflexivity.
    + apply eqb_neq in E. split.
      * intros [C|C]; [exfalso; apply E; symmetry; exact C|]. rewrite I1 by exact C. ring.
      * intro C. rewrite I2; [ring|]. intro D. apply C. right; exact D.
Qed.
Lemma discrete_intersection n v n' v' :
  intersection (FD n v) (FD n' v') = simmilarity (FD n v) (FD n' v') /\
  (intersection (FD n v) (FD n' v') = Ok 1 <-> n = n' /\ v = v') /\
  (intersection (FD n v) (FD n' v') = Ok 0 <-> ~ (n = n' /\ v = v')).
Proof.
  split; [reflexivity|]. simpl.
  destruct (eqb n n') eqn:E1; destruct (eqb v v') eqn:E2; simpl;
    rewrite ?eqb_eq, ?eqb_neq in *; split; split; intros; try tauto; try discriminate; try congruence.
Qed.

(* ------------------------------------------------------------------ *)
(** assembled statements *)
Lemma C06_laws :
  (forall s o, intersection s o = intersection o s) /\
  (forall s o h, intersection s o = Ok h -> 0 <= h /\ h <= 1) /\
  (forall s, intersection (FC s) (FC s) = Ok 1) /\
  (forall s o, pa s <= pb s /\ pb s <= pc s -> pa o <= pb o /\ pb o <= pc o ->
     (intersection (FC s) (FC o) = Ok 1 <-> pb s = pb o)) /\
  (forall s n v, intersection (FC s) (FD n v) = Err ValueError /\ intersection (FD n v) (FC s) = Err ValueError).
Proof.
  repeat split; try reflexivity.
  - apply C06_sym.
  - destruct s as [s|n v], o as [o|n' v']; simpl in H; try discriminate.
    + injection H as <-. apply intersection_c_01.
    + injection H as <-. destruct (eqb n n' && eqb v v'); qlra.
  - destruct s as [s|n v], o as [o|n' v']; simpl in H; try discriminate.
    + injection H as <-. apply intersection_c_01.
    + injection H as <-. destruct (eqb n n' && eqb v v'); qlra.
  - intros. simpl. rewrite peak_eq_one; reflexivity.
  - apply C06_one; assumption.
  - apply C06_one; assumption.
Qed.
Lemma C07_bounds s o :
  - (1) < simmilarity_c s o /\ simmilarity_c s o <= 1 /\ simmilarity (FC s) (FC o) = Ok (simmilarity_c s o) /\
  (pb s - pa s <= pc s - pb s -> pb o - pa o <= pc o - pb o -> 0 <= simmilarity_c s o).
Proof.
  destruct (simmilarity_c_bounds s o). repeat split; try assumption. apply simmilarity_c_nonneg.
Qed.
Lemma C07_shift s o k j n n' b b' :
  simmilarity (FC (mkC n (pa s + k) (pb s + k) (pc s + k) b)) (FC (mkC n' (pa o + j) (pb o + j) (pc o + j) b'))
  = simmilarity (FC s) (FC o).
Proof. exact (f_equal Ok (simmilarity_c_shift s o k j)). Qed.
Lemma C07_self s :
  (pc s - pb s <= pb s - pa s -> simmilarity (FC s) (FC s) = Ok 0) /\
  (pb s - pa s < pc s - pb s -> simmilarity (FC s) (FC s) = Ok 1).
Proof.
  destruct (simmilarity_c_self s) as [H1 H2]. simpl.
  split; intro H; [rewrite H1|rewrite H2]; auto.
Qed.
Lemma C07_negative : exists s o,
  (pa s <= pb s /\ pb s <= pc s) /\ (pa o <= pb o /\ pb o <= pc o) /\
  exists r, simmilarity (FC s) (FC o) = Ok r /\ r < 0.
Proof.
  exists (mkC ""%string (qc 0 1) (qc 3 1) (qc 5 1) false), (mkC ""%string (qc 0 1) (qc 1 1) (qc 5 1) false).
  cbn [pa pb pc]. unfold qc. split; [split; qlra|]. split; [split; qlra|].
  eexists; split; [reflexivity|]. vm_compute. reflexivity.
Qed.
Lemma C07_disjoint : exists s o,
  (pa s <= pb s /\ pb s <= pc s) /\ (pa o <= pb o /\ pb o <= pc o) /\ pc s < pa o /\
  simmilarity (FC s) (FC o) = Ok 1.
Proof.
  exists (mkC ""%string (qc 0 1) (qc 1 1) (qc 5 1) false), (mkC ""%string (qc 10 1) (qc 11 1) (qc 15 1) false).
  cbn [pa pb pc]. unfold qc. split; [split; qlra|]. split; [split; qlra|]. split; [qlra|].
  simpl. f_equal. apply Qc_is_canon. vm_compute. reflexivity.
Qed.
Lemma C08_laws a b :
  jaccard a b = jaccard b a /\ 0 <= jaccard a b /\ jaccard a b <= 1 /\
  (pc a <= pa b \/ pc b <= pa a -> jaccard a b = 0).
Proof.
  destruct (jaccard_01 a b). repeat split; try assumption; [apply jaccard_sym|apply jaccard_disjoint].
Qed.
Lemma C08_self a : (pa a < pc a -> jaccard a a = 1) /\ (pa a = pc a -> jaccard a a = 0).
Proof. split; [apply jaccard_self|]. intro E. apply jaccard_point. rewrite E. apply Qcle_refl. Qed.
Lemma C08_value a b : pa a <= pb a /\ pb a <= pc a -> pa b <= pb b /\ pb b <= pc b ->
  pa a < pc b -> pa b < pc a -> pa a < pc a -> pa b < pc b ->
  exists h, intersection (FC a) (FC b) = Ok h /\
  jaccard a b = (qmin (pc a) (pc b) - qmax (pa a) (pa b)) / (qmax (pc a) (pc b) - qmin (pa a) (pa b)) * h.
Proof.
  intros Ha Hb H1 H2 H3 H4. eexists; split; [reflexivity|]. unfold jaccard.
  rewrite (proj2 (qleb_gt _ _)); [reflexivity|]. unfold qmin, qmax. qcase; qlra.
Qed.
Lemma C09_algebra parse show a b :
  (forall m, merge parse show a b = Ok m -> merge parse show b a = Ok m) /\
  (forall m, merge parse show a a = Ok m -> pa m = pa a /\ pb m = pb a /\ pc m = pc a) /\
  (merge parse show a b = Err ValueError <-> parse (c_name a) = None \/ parse (c_name b) = None).
Proof.
  split; [|split].
  - intros m H. destruct (merge_comm parse show a b) as [E|[e E]]; congruence.
  - intro m. apply merge_idem.
  - symmetry. apply merge_err.
Qed.
Lemma C10_degree n v x m : membership (FD n v) x = Ok m -> (x = v -> m = 1) /\ (x <> v -> m = 0).
Proof.
  rewrite discrete_degree. intro H. injection H as <-. destruct (eq_dec x v); split; intros; congruence.
Qed.
