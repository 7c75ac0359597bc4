(** * Proofs about the fuzzy entropy (C13) *)
From Verif Require Import Prelude M_Fuzzy M_Discretize.
From Coq Require Import Reals Qreals Lra.
Set Implicit Arguments.
Open Scope Qc_scope.

(** ** rationals inside the reals *)
Lemma qr_plus a b : qr (a + b) = (qr a + qr b)%R.
Proof. unfold qr. rewrite <- Q2R_plus. apply Qeq_eqR, this_plus. Qed.
Lemma qr_mult a b : qr (a * b) = (qr a * qr b)%R.
Proof. unfold qr. rewrite <- Q2R_mult. apply Qeq_eqR, this_mult. Qed.
Lemma qr_0 : qr 0 = 0%R. Proof. unfold qr. apply RMicromega.Q2R_0. Qed.
Lemma qr_1 : qr 1 = 1%R. Proof. unfold qr. apply RMicromega.Q2R_1. Qed.
Lemma qr_le a b : (qr a <= qr b)%R <-> a <= b.
Proof. unfold qr, Qcle. split; [apply Rle_Qle|apply Qle_Rle]. Qed.
Lemma qr_lt a b : (qr a < qr b)%R <-> a < b.
Proof. unfold qr, Qclt. split; [apply Rlt_Qlt|apply Qlt_Rlt]. Qed.
Lemma qr_inj a b : qr a = qr b -> a = b.
Proof. intro H. apply Qcle_antisym; apply qr_le; rewrite H; apply Rle_refl. Qed.
Lemma qr_div a b : b <> 0 -> qr (a / b) = (qr a / qr b)%R.
Proof.
  intro H. assert (qr b <> 0%R) by (intro E; apply H, qr_inj; rewrite E; symmetry; apply qr_0).
  apply Rmult_eq_reg_r with (qr b); [|assumption].
  rewrite <- qr_mult, Qcdiv_mult by assumption. field. assumption.
Qed.
Lemma qr_qsum l : qr (qsum l) = rsum (map qr l).
Proof. induction l as [|x l IH]; [apply qr_0|]. rewrite qsum_cons, qr_plus, IH. reflexivity. Qed.
Lemma qr_qn n : qr (qn n) = INR n.
Proof.
  induction n as [|n IH]; [apply qr_0|]. rewrite qn_S, qr_plus, IH, S_INR, qr_1. ring.
Qed.

Lemma Rltb_lt x y : Rltb x y = true <-> (x < y)%R.
Proof. unfold Rltb. destruct (Rlt_dec x y); split; intros; try reflexivity; try assumption; try discriminate; contradiction. Qed.
Lemma Rltb_ge x y : Rltb x y = false <-> (y <= x)%R.
Proof. unfold Rltb. destruct (Rlt_dec x y); split; intros; try reflexivity; try discriminate; lra. Qed.

(** ** sums over lists of reals *)
Lemma rsum_cons x l : rsum (x :: l) = (x + rsum l)%R. Proof. reflexivity. Qed.
Lemma rsum_app l1 l2 : rsum (l1 ++ l2) = (rsum l1 + rsum l2)%R.
Proof. induction l1 as [|x l IH]; cbn [app]; [cbn; ring|]. rewrite !rsum_cons, IH. ring. Qed.
Lemma rsum_perm l l' : Permutation l l' -> rsum l = rsum l'.
Proof. induction 1; rewrite ?rsum_cons; [reflexivity|congruence|ring|congruence]. Qed.
Lemma rsum_map_le A (f g : A -> R) l : (forall x, In x l -> (f x <= g x)%R) -> (rsum (map f l) <= rsum (map g l))%R.
Proof.
  induction l as [|x l IH]; intro H; cbn [map]; [apply Rle_refl|].
  rewrite !rsum_cons. apply Rplus_le_compat; [apply H; left; reflexivity|].
  apply IH. intros; apply H; right; assumption.
Qed.
Lemma rsum_map_ext A (f g : A -> R) l : (forall x, In x l -> f x = g x) -> rsum (map f l) = rsum (map g l).
Proof. intro H. f_equal. apply map_ext_in. assumption. Qed.
Lemma rsum_map_zero A (f : A -> R) l : (forall x, In x l -> f x = 0%R) -> rsum (map f l) = 0%R.
Proof.
  induction l as [|x l IH]; intro H; cbn [map]; [reflexivity|].
  rewrite rsum_cons, (H x) by (left; reflexivity). rewrite IH; [ring|]. intros; apply H; right; assumption.
Qed.
Lemma rsum_nonneg l : (forall x, In x l -> (0 <= x)%R) -> (0 <= rsum l)%R.
Proof.
  induction l as [|x l IH]; intro H; [apply Rle_refl|]. rewrite rsum_cons.
  assert (0 <= x)%R by (apply H; left; reflexivity).
  assert (0 <= rsum l)%R by (apply IH; intros; apply H; right; assumption). lra.
Qed.
Lemma rsum_zero_all l : (forall x, In x l -> (0 <= x)%R) -> rsum l = 0%R -> forall x, In x l -> x = 0%R.
Proof.
  induction l as [|x l IH]; intros H E y [].
  - subst. rewrite rsum_cons in E.
    assert (0 <= y)%R by (apply H; left; reflexivity).
    assert (0 <= rsum l)%R by (apply rsum_nonneg; intros; apply H; right; assumption). lra.
  - rewrite rsum_cons in E.
    assert (0 <= x)%R by (apply H; left; reflexivity).
    assert (0 <= rsum l)%R by (apply rsum_nonneg; intros; apply H; right; assumption).
    apply IH; [intros; apply H; right; assumption|lra|assumption].
Qed.
Lemma rsum_map_plus A (f g : A -> R) l : rsum (map (fun x => f x + g x)%R l) = (rsum (map f l) + rsum (map g l))%R.
Proof. induction l as [|x l IH]; cbn [map]; [cbn; ring|]. rewrite !rsum_cons, IH. ring. Qed.
Lemma rsum_map_mult A (f : A -> R) c l : rsum (map (fun x => c * f x)%R l) = (c * rsum (map f l))%R.
Proof. induction l as [|x l IH]; cbn [map]; [cbn; ring|]. rewrite !rsum_cons, IH. ring. Qed.
Lemma rsum_const A c (l : list A) : rsum (map (fun _ => c) l) = (INR (List.length l) * c)%R.
Proof. induction l as [|x l IH]; cbn [map List.length]; [cbn; ring|]. rewrite rsum_cons, IH, S_INR. ring. Qed.

(** ** logarithms *)
Lemma ln2_pos : (0 < ln 2)%R. Proof. rewrite <- ln_1. apply ln_increasing; lra. Qed.
Lemma ln_le_minus1 x : (0 < x)%R -> (ln x <= x - 1)%R.
Proof.
  intro H. destruct (Req_dec x 1) as [->|N]; [rewrite ln_1; lra|].
  assert (ln x < x - 1)%R; [|lra].
  rewrite <- (ln_exp (x - 1)). apply ln_increasing; [assumption|].
  assert (1 + (x - 1) < exp (x - 1))%R by (apply exp_ineq1; lra). lra.
Qed.
Lemma log2_1 : log2 1 = 0%R. Proof. unfold log2. rewrite ln_1. unfold Rdiv. ring. Qed.
Lemma log2_le x y : (0 < x)%R -> (x <= y)%R -> (log2 x <= log2 y)%R.
Proof.
  intros H [L| ->]; [|apply Rle_refl]. unfold log2, Rdiv.
  apply Rmult_le_compat_r; [left; apply Rinv_0_lt_compat, ln2_pos|]. left. apply ln_increasing; assumption.
Qed.

Definition ent (x : R) : R := (- x * log2 x)%R.
Lemma ent_nonneg x : (0 < x)%R -> (x <= 1)%R -> (0 <= ent x)%R.
Proof.
  intros H L. unfold ent. assert (log2 x <= 0)%R by (rewrite <- log2_1; apply log2_le; assumption). nra.
Qed.
Lemma ent_pos x : (0 < x)%R -> (x < 1)%R -> (0 < ent x)%R.
Proof.
  intros H L. unfold ent. assert (log2 x < 0)%R; [|nra].
  unfold log2, Rdiv. assert (ln x < 0)%R by (rewrite <- ln_1; apply ln_increasing; assumption).
  assert (0 < / ln 2)%R by (apply Rinv_0_lt_compat, ln2_pos). nra.
Qed.
(** Gibbs' inequality for one term *)
Lemma ent_gibbs x n : (0 < x)%R -> (0 < n)%R -> (ent x * ln 2 <= / n - x + x * ln n)%R.
Proof.
  intros H Hn. unfold ent, log2. assert (P := ln2_pos).
  replace (- x * (ln x / ln 2) * ln 2)%R with (x * - ln x)%R by (field; lra).
  assert (E : (ln (/ (x * n)) <= / (x * n) - 1)%R) by (apply ln_le_minus1, Rinv_0_lt_compat; nra).
  rewrite ln_Rinv in E by nra. rewrite ln_mult in E by assumption.
  assert (F : (x * / (x * n) = / n)%R) by (field; lra).
  assert (x * - (ln x + ln n) <= x * (/ (x * n) - 1))%R by (apply Rmult_le_compat_l; lra). nra.
Qed.

(** ** class masses *)

Lemma class_card_nonneg t cls v : Forall (fun x => 0 <= x) t -> 0 <= class_card t cls v.
Proof.
  intro H. unfold class_card. apply qsum_nonneg. apply Forall_forall. intros x Hx.
  apply in_map_iff in Hx. destruct Hx as [[a b] [E Hx]]. simpl in E. subst a.
  apply filter_In in Hx. destruct Hx as [Hx _]. apply in_combine_l in Hx.
  rewrite Forall_forall in H. auto.
Qed.
Lemma filter_split_sum A (f : A -> Qc) (p : A -> bool) l :
  qsum (map f l) = qsum (map f (filter p l)) + qsum (map f (filter (fun x => negb (p x)) l)).
Proof.
  induction l as [|x l IH]; cbn [map filter]; [unfold qsum; simpl; ring|].
  rewrite qsum_cons, IH. destruct (p x); cbn [negb map]; rewrite !qsum_cons; ring.
Qed.
Lemma sum_by_key (L : list (Qc * Z)) ks : NoDup ks -> (forall p, In p L -> In (snd p) ks) ->
  qsum (map (fun v => qsum (map fst (filter (fun p => Z.eqb (snd p) v) L))) ks) = qsum (map fst L).
Proof.
  intros ND. induction L as [|[x c] L IH]; intro H.
  - rewrite qsum_map_zero; reflexivity.
  - assert (IH' := IH (fun p Hp => H p (or_intror Hp))). clear IH.
    cbn [map fst]. rewrite qsum_cons, <- IH'.
    assert (Hc : In c ks) by (apply (H (x, c)); left; reflexivity).
    clear - ND Hc. induction ks as [|k ks IH]; [destruct Hc|].
    inversion ND as [|? ? Hn ND']; subst. cbn [map filter snd]. rewrite !qsum_cons.
    destruct (Z.eqb_spec c k) as [->|N].
    + cbn [map fst]. rewrite qsum_cons.
      replace (qsum (map (fun v => qsum (map fst (if (k =? v)%Z then (x, k) :: filter (fun p => (snd p =? v)%Z) L else filter (fun p => (snd p =? v)%Z) L))) ks))
        with (qsum (map (fun v => qsum (map fst (filter (fun p => (snd p =? v)%Z) L))) ks)); [ring|].
      f_equal. apply map_ext_in. intros a Ha. destruct (Z.eqb_spec k a) as [->|]; [contradiction|reflexivity].
    + destruct Hc as [->|Hc]; [congruence|]. cbn [filter snd] in IH. rewrite IH by assumption. ring.
Qed.
Lemma map_fst_combine A B (l : list A) (l' : list B) : List.length l = List.length l' -> map fst (combine l l') = l.
Proof. revert l'; induction l as [|x l IH]; intros [|y l']; simpl; intro H; try discriminate; [reflexivity|]. f_equal. apply IH. lia. Qed.
Lemma map_snd_combine A B (l : list A) (l' : list B) : List.length l = List.length l' -> map snd (combine l l') = l'.
Proof. revert l'; induction l as [|x l IH]; intros [|y l']; simpl; intro H; try discriminate; [reflexivity|]. f_equal. apply IH. lia. Qed.
Lemma class_card_sum t cls : List.length t = List.length cls ->
  qsum (map (class_card t cls) (zunique cls)) = qsum t.
Proof.
  intro H. unfold class_card, zip. rewrite sum_by_key.
  - rewrite map_fst_combine by assumption. reflexivity.
  - apply zunique_NoDup.
  - intros [x c] Hp. apply zunique_In. cbn. eapply in_combine_r; eauto.
Qed.
Lemma class_card_le t cls v : Forall (fun x => 0 <= x) t -> List.length t = List.length cls ->
  class_card t cls v <= qsum t.
Proof.
  intros H L. unfold class_card, zip.
  replace (qsum t) with (qsum (map fst (combine t cls))) by (rewrite map_fst_combine by assumption; reflexivity).
  rewrite (filter_split_sum fst (fun p => (snd p =? v)%Z) (combine t cls)).
  assert (0 <= qsum (map fst (filter (fun p => negb (snd p =? v)%Z) (combine t cls)))); [|qlra].
  apply qsum_nonneg. apply Forall_forall. intros x Hx. apply in_map_iff in Hx.
  destruct Hx as [[a b] [E Hx]]. simpl in E. subst a. apply filter_In in Hx. destruct Hx as [Hx _].
  apply in_combine_l in Hx. rewrite Forall_forall in H. auto.
Qed.

(** ** the entropy *)
Lemma entropy_term_ratio t cls v : 0 < class_card t cls v -> Forall (fun x => 0 <= x) t ->
  List.length t = List.length cls ->
  0 < class_card t cls v / qsum t /\ class_card t cls v / qsum t <= 1 /\ 0 < qsum t.
Proof.
  intros H HP L. assert (B := @class_card_le t cls v HP L).
  assert (0 < qsum t) by qlra. split; [|split; [|assumption]].
  - apply Qclt_div; [assumption|]. qlra.
  - apply Qcdiv_le; [assumption|]. qlra.
Qed.
Lemma entropy_term_nonneg t cls v : Forall (fun x => 0 <= x) t -> List.length t = List.length cls ->
  (0 <= entropy_term t cls v)%R.
Proof.
  intros HP L. unfold entropy_term. destruct (qltb 0 (class_card t cls v)) eqn:E; [|apply Rle_refl].
  apply qltb_lt in E. destruct (@entropy_term_ratio _ _ _ E HP L) as [A [B _]].
  apply ent_nonneg.
  - rewrite <- qr_0. apply qr_lt. assumption.
  - rewrite <- qr_1. apply qr_le. assumption.
Qed.
Lemma fuzzy_entropy_nonneg t cls : Forall (fun x => 0 <= x) t -> List.length t = List.length cls ->
  (0 <= fuzzy_entropy t cls)%R.
Proof.
  intros HP L. unfold fuzzy_entropy. apply rsum_nonneg. intros x Hx.
  apply in_map_iff in Hx. destruct Hx as [v [<- _]]. apply entropy_term_nonneg; assumption.
Qed.
Lemma qsum_pos_or_zero t : Forall (fun x => 0 <= x) t -> qsum t = 0 \/ 0 < qsum t.
Proof. intro H. apply qsum_nonneg in H. destruct (Qc_eq_dec (qsum t) 0) as [|N]; [left; assumption|].
  right. destruct (Qc_neq_lt N); [qlra|assumption]. Qed.

Lemma fuzzy_entropy_le t cls : Forall (fun x => 0 <= x) t -> List.length t = List.length cls -> cls <> [] ->
  (fuzzy_entropy t cls <= log2 (INR (List.length (zunique cls))))%R.
Proof.
  intros HP L NE. set (n := List.length (zunique cls)).
  assert (Hn : (1 <= n)%nat).
  { destruct cls as [|c cls']; [congruence|]. assert (In c (zunique (c :: cls'))) by (apply zunique_In; left; reflexivity).
    unfold n. destruct (zunique (c :: cls')); [contradiction|simpl; lia]. }
  assert (HnR : (1 <= INR n)%R) by (apply (le_INR 1); assumption).
  destruct (qsum_pos_or_zero HP) as [Z|P].
  - replace (fuzzy_entropy t cls) with 0%R.
    + rewrite <- log2_1. apply log2_le; lra.
    + symmetry. apply rsum_map_zero. intros v _. unfold entropy_term.
      destruct (qltb 0 (class_card t cls v)) eqn:E; [|reflexivity].
      apply qltb_lt in E. assert (B := @class_card_le t cls v HP L). exfalso. qlra.
  - assert (K := ln2_pos). apply Rmult_le_reg_r with (ln 2); [assumption|].
    unfold log2. replace (ln (INR n) / ln 2 * ln 2)%R with (ln (INR n)) by (field; lra).
    unfold fuzzy_entropy. rewrite Rmult_comm, <- rsum_map_mult.
    apply Rle_trans with (rsum (map (fun v => / INR n + (ln (INR n) - 1) * qr (class_card t cls v / qsum t))%R (zunique cls))).
    + apply rsum_map_le. intros v _. unfold entropy_term.
      destruct (qltb 0 (class_card t cls v)) eqn:E.
      * apply qltb_lt in E. destruct (@entropy_term_ratio _ _ _ E HP L) as [A [B _]].
        assert (G : (0 < qr (class_card t cls v / qsum t))%R) by (rewrite <- qr_0; apply qr_lt; assumption).
        assert (G2 := @ent_gibbs _ (INR n) G ltac:(lra)). unfold ent in G2. lra.
      * apply qltb_ge in E. assert (B := @class_card_nonneg _ cls v HP).
        assert (Z : class_card t cls v = 0) by qlra. rewrite Z.
        replace (0 / qsum t) with (0:Qc) by (field; intro; qlra). rewrite qr_0.
        assert (0 < / INR n)%R by (apply Rinv_0_lt_compat; lra). lra.
    + rewrite rsum_map_plus, rsum_map_mult, rsum_const. fold n.
      replace (rsum (map (fun v => qr (class_card t cls v / qsum t)) (zunique cls))) with 1%R.
      * right. field. lra.
      * rewrite <- (map_map (fun v => class_card t cls v / qsum t) qr), <- qr_qsum.
        rewrite <- qr_1. f_equal.
        assert (N : qsum t <> 0) by (intro; qlra).
        transitivity (qsum (map (fun v => / qsum t * class_card t cls v) (zunique cls))).
        -- rewrite qsum_map_mult, class_card_sum by assumption. field. assumption.
        -- f_equal. apply map_ext. intro v. unfold Qcdiv. ring.
Qed.

(** positive mass of a class comes from a row with positive degree *)
Lemma class_card_pos t cls v : Forall (fun x => 0 <= x) t ->
  (0 < class_card t cls v <-> exists i ti, nth_error t i = Some ti /\ nth_error cls i = Some v /\ 0 < ti).
Proof.
  revert cls. induction t as [|x t IH]; intros cls H.
  - unfold class_card. cbn. split.
    + intro E. exfalso. qlra.
    + intros [i [ti [E _]]]. destruct i; discriminate.
  - inversion H as [|? ? Hx Ht]; subst. destruct cls as [|c cls].
    + unfold class_card. cbn. split.
      * intro E. exfalso. qlra.
      * intros [i [ti [_ [E _]]]]. destruct i; discriminate.
    + assert (C : class_card (x :: t) (c :: cls) v = (if Z.eqb c v then x else 0) + class_card t cls v).
      { unfold class_card, zip. cbn [combine filter snd]. destruct (Z.eqb c v); cbn [map fst]; rewrite ?qsum_cons; ring. }
      rewrite C. assert (N := @class_card_nonneg _ cls v Ht). specialize (IH cls Ht).
      split.
      * intro E. destruct (qltb_spec 0 (class_card t cls v)) as [P|P].
        -- destruct (proj1 IH P) as [i [ti [A [B D]]]]. exists (S i), ti. auto.
        -- destruct (Z.eqb_spec c v) as [->|]; [|exfalso; qlra].
           exists 0%nat, x. cbn. repeat split; try reflexivity. qlra.
      * intros [i [ti [A [B D]]]]. destruct i as [|i]; cbn in A, B.
        -- injection A as ->. injection B as ->. rewrite Z.eqb_refl. qlra.
        -- assert (0 < class_card t cls v) by (apply IH; eauto). destruct (Z.eqb c v); qlra.
Qed.

Lemma entropy_term_zero t cls v : Forall (fun x => 0 <= x) t -> List.length t = List.length cls ->
  entropy_term t cls v = 0%R -> 0 < class_card t cls v -> class_card t cls v = qsum t.
Proof.
  intros HP L E P. unfold entropy_term in E. destruct (qltb_spec 0 (class_card t cls v)) as [_|Q]; [|exfalso; qlra].
  destruct (@entropy_term_ratio _ _ _ P HP L) as [A [B C]].
  destruct (qltb_spec (class_card t cls v / qsum t) 1) as [D|D].
  - exfalso. assert (G : (0 < ent (qr (class_card t cls v / qsum t)))%R).
    { apply ent_pos; [rewrite <- qr_0|rewrite <- qr_1]; apply qr_lt; assumption. }
    unfold ent in G. cbv zeta in E. lra.
  - assert (F : class_card t cls v / qsum t = 1) by (apply Qcle_antisym; assumption).
    rewrite Qcdiv_eq in F by (intro; qlra). rewrite F. ring.
Qed.
Lemma two_classes_le t cls v w : Forall (fun x => 0 <= x) t -> List.length t = List.length cls -> v <> w ->
  class_card t cls v + class_card t cls w <= qsum t.
Proof.
  intros HP L N. unfold class_card, zip.
  replace (qsum t) with (qsum (map fst (combine t cls))) by (rewrite map_fst_combine by assumption; reflexivity).
  assert (HP' : forall p, In p (combine t cls) -> 0 <= fst p).
  { intros [a b] Hp. apply in_combine_l in Hp. rewrite Forall_forall in HP. auto. }
  revert HP'. generalize (combine t cls). clear - N. intros l HP.
  induction l as [|[x c] l IH]; [cbn; apply Qcle_refl|].
  assert (IH' := IH (fun p Hp => HP p (or_intror Hp))). clear IH.
  assert (0 <= x) by (apply (HP (x, c)); left; reflexivity).
  cbn [filter snd]. destruct (Z.eqb_spec c v) as [->|]; [destruct (Z.eqb_spec v w); [congruence|]|destruct (Z.eqb_spec c w)];
    cbn [map fst]; rewrite ?qsum_cons; qlra.
Qed.

Lemma fuzzy_entropy_zero_iff t cls : Forall (fun x => 0 <= x) t -> List.length t = List.length cls ->
  (fuzzy_entropy t cls = 0%R <->
   (forall i j ti tj ci cj, nth_error t i = Some ti -> nth_error t j = Some tj ->
      nth_error cls i = Some ci -> nth_error cls j = Some cj -> 0 < ti -> 0 < tj -> ci = cj)).
Proof.
  intros HP L. split.
  - intros E i j ti tj ci cj Ti Tj Ci Cj Pi Pj.
    assert (A : forall v, In v (zunique cls) -> entropy_term t cls v = 0%R).
    { intros v Hv. apply (@rsum_zero_all (map (entropy_term t cls) (zunique cls))); [|assumption|apply in_map; assumption].
      intros x Hx. apply in_map_iff in Hx. destruct Hx as [u [<- _]]. apply entropy_term_nonneg; assumption. }
    assert (Mi : 0 < class_card t cls ci) by (apply class_card_pos; eauto).
    assert (Mj : 0 < class_card t cls cj) by (apply class_card_pos; eauto).
    assert (Ei := @entropy_term_zero t cls ci HP L (A ci ltac:(apply zunique_In; eapply nth_error_In; eauto)) Mi).
    destruct (Z.eq_dec ci cj) as [|N]; [assumption|]. exfalso.
    assert (B := @two_classes_le t cls ci cj HP L N). qlra.
  - intro U. apply rsum_map_zero. intros v Hv. unfold entropy_term.
    destruct (qltb_spec 0 (class_card t cls v)) as [P|P]; [|reflexivity].
    assert (E : class_card t cls v = qsum t).
    { rewrite <- (class_card_sum _ _ L). assert (ND := zunique_NoDup cls).
      assert (Z : forall w, w <> v -> class_card t cls w = 0).
      { intros w N. assert (Q := @class_card_nonneg _ cls w HP).
        destruct (qltb_spec 0 (class_card t cls w)) as [Pw|Pw]; [|qlra]. exfalso. apply N.
        apply class_card_pos in P; [|assumption]. apply class_card_pos in Pw; [|assumption].
        destruct P as [i [ti [A [B C]]]]. destruct Pw as [j [tj [A' [B' C']]]]. exact (U j i tj ti w v A' A B' B C' C). }
      clear - ND Hv Z. induction (zunique cls) as [|k l IH]; [destruct Hv|].
      inversion ND as [|? ? Hn ND']; subst. cbn [map]. rewrite qsum_cons. destruct Hv as [->|Hv].
      - rewrite qsum_map_zero; [ring|]. intros w Hw. apply Z. intros ->. contradiction.
      - rewrite <- IH by assumption. rewrite (Z k); [ring|]. intros ->. contradiction. }
    rewrite E. replace (qsum t / qsum t) with (1:Qc) by (field; intro; qlra).
    rewrite qr_1, log2_1. ring.
Qed.

Lemma filter_perm A (p : A -> bool) l l' : Permutation l l' -> Permutation (filter p l) (filter p l').
Proof.
  induction 1 as [|x l l' P IH|x y l|l1 l2 l3 P1 IH1 P2 IH2]; simpl.
  - apply perm_nil.
  - destruct (p x); [apply perm_skip|]; assumption.
  - destruct (p x), (p y); try apply perm_swap; apply Permutation_refl.
  - eapply perm_trans; eauto.
Qed.
Lemma zunique_ext l l' : (forall x, In x l <-> In x l') -> zunique l = zunique l'.
Proof.
  intro H. apply (@sorted_ext Z Z.ltb zltb_trans Z.ltb_irrefl).
  - apply unique_by_sorted; [exact zltb_trans|exact zltb_total].
  - apply unique_by_sorted; [exact zltb_trans|exact zltb_total].
  - intro x. fold zunique. rewrite !zunique_In. apply H.
Qed.
Lemma fuzzy_entropy_perm t cls t' cls' : List.length t = List.length cls -> List.length t' = List.length cls' ->
  Permutation (combine t cls) (combine t' cls') -> fuzzy_entropy t cls = fuzzy_entropy t' cls'.
Proof.
  intros L L' P. unfold fuzzy_entropy.
  assert (Pt : Permutation t t').
  { rewrite <- (map_fst_combine _ _ L), <- (map_fst_combine _ _ L'). apply Permutation_map. assumption. }
  assert (Pc : Permutation cls cls').
  { rewrite <- (map_snd_combine _ _ L), <- (map_snd_combine _ _ L'). apply Permutation_map. assumption. }
  rewrite (@zunique_ext cls cls').
  - apply rsum_map_ext. intros v _. unfold entropy_term, class_card, zip.
    rewrite (qsum_perm Pt). rewrite (qsum_perm (Permutation_map fst (filter_perm (fun p => Z.eqb (snd p) v) P))). reflexivity.
  - intro x. split; apply Permutation_in; [assumption|apply Permutation_sym; assumption].
Qed.
Lemma class_card_scale k t cls v : class_card (map (fun x => k * x) t) cls v = k * class_card t cls v.
Proof.
  unfold class_card, zip. revert cls. induction t as [|x t IH]; intros [|c cls]; cbn [map combine filter snd].
  - cbn. ring.
  - cbn. ring.
  - cbn. ring.
  - destruct (Z.eqb c v); cbn [map fst]; rewrite ?qsum_cons, IH; ring.
Qed.
Lemma fuzzy_entropy_scale k t cls : 0 < k -> fuzzy_entropy (map (fun x => k * x) t) cls = fuzzy_entropy t cls.
Proof.
  intro K. unfold fuzzy_entropy. apply rsum_map_ext. intros v _. unfold entropy_term.
  rewrite class_card_scale. replace (qsum (map (fun x => k * x) t)) with (k * qsum t)
    by (symmetry; rewrite (qsum_map_mult (fun x => x) k t); rewrite map_id; reflexivity).
  assert (N : k <> 0) by (intro; qlra).
  replace (qltb 0 (k * class_card t cls v)) with (qltb 0 (class_card t cls v)).
  - destruct (Qc_eq_dec (qsum t) 0) as [E|E].
    + rewrite E. replace (k * 0) with (0:Qc) by ring.
      replace (k * class_card t cls v / 0) with (class_card t cls v / 0); [reflexivity|].
      unfold Qcdiv. replace (/ 0) with (0:Qc) by (apply Qc_is_canon; reflexivity). ring.
    + replace (k * class_card t cls v / (k * qsum t)) with (class_card t cls v / qsum t) by (field; auto). reflexivity.
  - destruct (qltb_spec 0 (class_card t cls v)) as [P|P]; symmetry.
    + apply qltb_lt. apply Qcmult_pos; assumption.
    + apply qltb_ge. qnra.
Qed.

Lemma wfe_bounds (ts : list (list Qc)) cls : cls <> [] ->
  (forall t, In t ts -> Forall (fun x => 0 <= x) t /\ List.length t = List.length cls) ->
  (0 <= weighted_fuzzy_entropy ts cls <=
   qr (qsum (map qsum ts)) / INR (List.length cls) * log2 (INR (List.length (zunique cls))))%R.
Proof.
  intros NE H. unfold weighted_fuzzy_entropy.
  assert (P : (0 < INR (List.length cls))%R) by (destruct cls; [congruence|apply lt_0_INR; simpl; lia]).
  assert (I : (0 < / INR (List.length cls))%R) by (apply Rinv_0_lt_compat; assumption).
  split.
  - unfold Rdiv. apply Rmult_le_pos; [|lra]. apply rsum_nonneg. intros x Hx.
    apply in_map_iff in Hx. destruct Hx as [t [<- Ht]]. destruct (H t Ht) as [A B].
    apply Rmult_le_pos; [|apply fuzzy_entropy_nonneg; assumption].
    rewrite <- qr_0. apply qr_le. apply qsum_nonneg. assumption.
  - unfold Rdiv. rewrite Rmult_assoc, (Rmult_comm (/ _)), <- Rmult_assoc.
    apply Rmult_le_compat_r; [lra|]. rewrite qr_qsum, map_map, Rmult_comm, <- rsum_map_mult.
    apply rsum_map_le. intros t Ht. destruct (H t Ht) as [A B]. rewrite Rmult_comm.
    apply Rmult_le_compat_r.
    + rewrite <- qr_0. apply qr_le. apply qsum_nonneg. assumption.
    + apply fuzzy_entropy_le; assumption.
Qed.
