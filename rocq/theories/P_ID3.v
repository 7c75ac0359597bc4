(** * Entropy and information gain of ID3 *)
From Verif Require Import Prelude M_Fuzzy M_Discretize M_Rule M_ID3 S_ID3 P_Entropy.
From Coq Require Import Reals Lra.
Set Implicit Arguments.
Open Scope Qc_scope.

Definition xlog (x : R) : R := if Rlt_dec 0 x then (x * ln x)%R else 0%R.
Lemma xlog_pos x : (0 < x)%R -> xlog x = (x * ln x)%R.
Proof. intro. unfold xlog. destruct (Rlt_dec 0 x); [reflexivity|contradiction]. Qed.
Lemma xlog_0 : xlog 0 = 0%R.
Proof. unfold xlog. destruct (Rlt_dec 0 0); [lra|reflexivity]. Qed.

Lemma ln_quot a b : (0 < a)%R -> (0 < b)%R -> ln (a / b) = (ln a - ln b)%R.
Proof. intros A B. unfold Rdiv. rewrite ln_mult, ln_Rinv by (try apply Rinv_0_lt_compat; assumption). ring. Qed.
(** mutual information is not negative *)
Lemma gain_term a s c n : (0 <= a)%R -> (a <= s)%R -> (a <= c)%R -> (0 < n)%R ->
  (a - s * c / n <= xlog a - a * ln s - a * ln c + a * ln n)%R.
Proof.
  intros A S C N. unfold xlog. destruct (Rlt_dec 0 a) as [P|P].
  - assert (G := @ln_le_minus1 ((s * c) / (a * n))).
    assert (0 < s * c)%R by (apply Rmult_lt_0_compat; lra). assert (0 < a * n)%R by (apply Rmult_lt_0_compat; lra).
    unfold Rdiv in G at 2. rewrite ln_mult, ln_Rinv in G by (try apply Rinv_0_lt_compat; assumption). rewrite !ln_mult in G by lra.
    assert (Q : (ln s + ln c + - (ln a + ln n) <= s * c / (a * n) - 1)%R).
    { apply G. apply Rdiv_lt_0_compat; assumption. }
    apply (Rmult_le_compat_l a) in Q; [|lra].
    replace (a * (s * c / (a * n) - 1))%R with (s * c / n - a)%R in Q by (field; lra). lra.
  - assert (a = 0)%R by lra. subst a. assert (0 <= s * c / n)%R; [|lra].
    apply Rmult_le_pos; [apply Rmult_le_pos; lra|]. left. apply Rinv_0_lt_compat. assumption.
Qed.
Lemma rsum_swap A B (f : A -> B -> R) l m :
  rsum (map (fun a => rsum (map (f a) m)) l) = rsum (map (fun b => rsum (map (fun a => f a b) l)) m).
Proof.
  induction l as [|a l IH]; cbn [map rsum fold_right].
  - symmetry. apply rsum_map_zero. reflexivity.
  - fold (rsum (map (fun a0 => rsum (map (f a0) m)) l)). rewrite IH. rewrite <- rsum_map_plus. reflexivity.
Qed.
Lemma rsum_in_le A (f : A -> R) l x : (forall a, In a l -> (0 <= f a)%R) -> In x l -> (f x <= rsum (map f l))%R.
Proof.
  induction l as [|a l IH]; intros H I; [destruct I|]. cbn [map]. rewrite rsum_cons.
  assert (0 <= rsum (map f l))%R.
  { apply rsum_nonneg. intros y Hy. apply in_map_iff in Hy. destruct Hy as [z [<- Hz]]. apply H. right; assumption. }
  destruct I as [->|I]; [lra|]. assert (0 <= f a)%R by (apply H; left; reflexivity).
  assert (f x <= rsum (map f l))%R by (apply IH; [intros; apply H; right; assumption|assumption]). lra.
Qed.
Lemma mutual_information A B (N : A -> B -> R) (ss : list A) (cs : list B) :
  (forall s c, (0 <= N s c)%R) ->
  let n_s := fun s => rsum (map (N s) cs) in
  let n_c := fun c => rsum (map (fun s => N s c) ss) in
  let n := rsum (map n_s ss) in
  (0 < n)%R ->
  (0 <= xlog n - rsum (map (fun c => xlog (n_c c)) cs)
        - rsum (map (fun s => xlog (n_s s) - rsum (map (fun c => xlog (N s c)) cs)) ss))%R.
Proof.
  intros P n_s n_c n Hn.
  assert (NS : forall s, (0 <= n_s s)%R).
  { intro s. apply rsum_nonneg. intros y Hy. apply in_map_iff in Hy. destruct Hy as [z [<- _]]. apply P. }
  assert (NC : forall c, (0 <= n_c c)%R).
  { intro s. apply rsum_nonneg. intros y Hy. apply in_map_iff in Hy. destruct Hy as [z [<- _]]. apply P. }
  assert (XL : forall x, (0 <= x)%R -> xlog x = (x * ln x)%R).
  { intros x Hx. unfold xlog. destruct (Rlt_dec 0 x); [reflexivity|]. replace x with 0%R by lra. ring. }
  assert (Sn : rsum (map n_c cs) = n). { unfold n, n_c, n_s. symmetry. apply rsum_swap. }
  assert (T : (rsum (map (fun s => rsum (map (fun c => N s c - n_s s * n_c c / n) cs)) ss)
            <= rsum (map (fun s => rsum (map (fun c => xlog (N s c) - N s c * ln (n_s s) - N s c * ln (n_c c) + N s c * ln n) cs)) ss))%R).
  { apply rsum_map_le. intros s Hs. apply rsum_map_le. intros c Hc. apply gain_term; [apply P| | |assumption].
    - unfold n_s. apply (@rsum_in_le B (N s)); [intros; apply P|assumption].
    - unfold n_c. apply (@rsum_in_le A (fun s => N s c)); [intros; apply P|assumption]. }
  assert (L : rsum (map (fun s => rsum (map (fun c => N s c - n_s s * n_c c / n)%R cs)) ss) = 0%R).
  { rewrite (rsum_map_ext _ (fun s => n_s s - n_s s * (rsum (map n_c cs) / n))%R).
    - rewrite Sn. rewrite (rsum_map_ext _ (fun s => 0 * n_s s)%R); [rewrite rsum_map_mult; ring|]. intros s _. field. lra.
    - intros s _. rewrite (rsum_map_ext _ (fun c => N s c + (- n_s s / n) * n_c c)%R) by (intros; field; lra).
      rewrite rsum_map_plus, rsum_map_mult. fold (n_s s). field. lra. }
  assert (U : rsum (map (fun s => rsum (map (fun c => xlog (N s c) - N s c * ln (n_s s) - N s c * ln (n_c c) + N s c * ln n)%R cs)) ss)
    = (xlog n - rsum (map (fun c => xlog (n_c c)) cs) - rsum (map (fun s => xlog (n_s s) - rsum (map (fun c => xlog (N s c)) cs)) ss))%R).
  { rewrite (rsum_map_ext _ (fun s => (- (1)) * (xlog (n_s s) - rsum (map (fun c => xlog (N s c)) cs))
        + (rsum (map (fun c => N s c * - ln (n_c c)) cs) + ln n * n_s s))%R).
    - rewrite rsum_map_plus, rsum_map_mult, rsum_map_plus, rsum_map_mult.
      rewrite (rsum_swap (fun s c => N s c * - ln (n_c c))%R).
      rewrite (rsum_map_ext _ (fun c => (- (1)) * xlog (n_c c))%R cs).
      + rewrite rsum_map_mult. fold n. rewrite (XL n) by lra. ring.
      + intros c _. rewrite (rsum_map_ext _ (fun s => - ln (n_c c) * N s c)%R) by (intros; ring). rewrite rsum_map_mult.
        fold (n_c c). rewrite XL by apply NC. ring.
    - intros s _. rewrite (rsum_map_ext _ (fun c => (xlog (N s c) + - ln (n_s s) * N s c) + (N s c * - ln (n_c c) + ln n * N s c))%R) by (intros; ring).
      rewrite rsum_map_plus, rsum_map_plus, rsum_map_plus, !rsum_map_mult. fold (n_s s). rewrite (XL (n_s s)) by apply NS. ring. }
  rewrite <- U, <- L. exact T.
Qed.

Lemma count_cons c a y : count_class c (a :: y) = ((if Z.eqb c a then 1 else 0) + count_class c y)%nat.
Proof. unfold count_class, countb. cbn [filter]. destruct (Z.eqb c a); reflexivity. Qed.
Lemma indicator_sum a (cs : list Z) : NoDup cs -> In a cs -> qsum (map (fun c => qn (if Z.eqb c a then 1 else 0)) cs) = 1.
Proof.
  induction 1 as [|c cs N ND IH]; intro I; [destruct I|]. cbn [map]. rewrite qsum_cons. destruct (Z.eqb_spec c a) as [->|D].
  - rewrite qsum_map_zero; [change (qn 1) with 1%Qc; ring|]. intros b Hb. destruct (Z.eqb_spec b a) as [->|_]; [contradiction|reflexivity].
  - rewrite IH; [change (qn 0) with 0%Qc; ring|]. destruct I as [I|I]; [congruence|assumption].
Qed.
Lemma count_total y cs : NoDup cs -> incl y cs -> qsum (map (fun c => qn (count_class c y)) cs) = qn (List.length y).
Proof.
  intros N. induction y as [|a y IH]; intro I.
  - rewrite qsum_map_zero; reflexivity.
  - rewrite (map_ext _ (fun c => qn (if Z.eqb c a then 1 else 0) + qn (count_class c y))) by (intro; rewrite count_cons, qn_plus; reflexivity).
    rewrite qsum_map_plus, indicator_sum, IH; [cbn [List.length]; rewrite qn_S; reflexivity| |assumption|].
    + intros b Hb. apply I. right; assumption.
    + apply I. left; reflexivity.
Qed.
Lemma count_total_R y cs : NoDup cs -> incl y cs -> rsum (map (fun c => INR (count_class c y)) cs) = INR (List.length y).
Proof.
  intros N I. rewrite <- qr_qn, <- (count_total N I), qr_qsum, map_map. apply rsum_map_ext. intros. rewrite qr_qn. reflexivity.
Qed.
Lemma class_entropy_xlog cs y : NoDup cs -> incl y cs -> y <> [] ->
  (INR (List.length y) * class_entropy cs y (List.length y) * ln 2)%R
  = (xlog (INR (List.length y)) - rsum (map (fun c => xlog (INR (count_class c y))) cs))%R.
Proof.
  intros N I NE. assert (L : (0 < List.length y)%nat) by (destruct y; [congruence|cbn; lia]).
  assert (LR : (0 < INR (List.length y))%R) by (apply lt_0_INR; assumption).
  assert (LQ : qn (List.length y) <> 0). { intro E. change 0 with (qn 0) in E. apply qn_inj in E. lia. }
  unfold class_entropy, scipy_entropy.
  assert (S1 : qsum (map (fun c => qn (count_class c y) / qn (List.length y)) cs) = 1).
  { rewrite (map_ext _ (fun c => (/ qn (List.length y)) * qn (count_class c y))) by (intro; field; assumption).
    rewrite (qsum_map_mult (fun c => qn (count_class c y))), (count_total N I). field. assumption. }
  rewrite S1. rewrite map_map. rewrite xlog_pos by assumption.
  rewrite (rsum_map_ext _ (fun c => (/ INR (List.length y) * / ln 2) * (ln (INR (List.length y)) * INR (count_class c y) + (- (1)) * xlog (INR (count_class c y))))%R).
  - rewrite rsum_map_mult, rsum_map_plus, !rsum_map_mult, (count_total_R N I). assert (H := ln2_pos). field. lra.
  - intros c _. assert (H := ln2_pos). cbn zeta.
    assert (E : qn (count_class c y) / qn (List.length y) / 1 = qn (count_class c y) / qn (List.length y)) by (field; split; [assumption|discriminate]).
    rewrite E. rewrite qr_div by assumption. rewrite !qr_qn.
    destruct (Nat.eq_dec (count_class c y) 0) as [Z|Z].
    + rewrite Z. replace (qltb 0 (qn 0 / qn (List.length y))) with false by (symmetry; apply qltb_ge; change (qn 0) with 0%Qc; replace (0 / qn (List.length y)) with 0%Qc by (field; assumption); apply Qcle_refl).
      cbn [INR]. rewrite xlog_0. field. lra.
    + assert (P : (0 < INR (count_class c y))%R) by (apply lt_0_INR; lia).
      replace (qltb 0 (qn (count_class c y) / qn (List.length y))) with true.
      * rewrite xlog_pos by assumption. unfold log2. rewrite ln_quot by assumption. field. lra.
      * symmetry. apply qltb_lt. apply Qclt_div; [apply qn_pos; assumption|]. rewrite Qcmult_0_l. apply qn_pos. lia.
Qed.

Lemma indicator_sum_gen A (EA : EqDec A) (a : A) (cs : list A) : NoDup cs -> In a cs ->
  rsum (map (fun c => INR (if eqb a c then 1 else 0)) cs) = 1%R.
Proof.
  induction 1 as [|c cs N ND IH]; intro I; [destruct I|]. cbn [map]. rewrite rsum_cons. destruct (eqb a c) eqn:E.
  - rewrite eqb_eq in E. subst c. rewrite rsum_map_zero; [cbn; ring|]. intros b Hb. destruct (eqb a b) eqn:E; [|reflexivity].
    rewrite eqb_eq in E. subst. contradiction.
  - rewrite IH; [cbn; ring|]. destruct I as [I|I]; [|assumption]. subst. rewrite eqb_refl in E. discriminate.
Qed.
Lemma part_count c (L : list (cell * Z)) splits : NoDup splits -> (forall p, In p L -> In (fst p) splits) ->
  rsum (map (fun s => INR (count_class c (map snd (filter (fun p => eqb (fst p) s) L)))) splits) = INR (count_class c (map snd L)).
Proof.
  intros N. induction L as [|[v a] L IH]; intro I.
  - apply rsum_map_zero. reflexivity.
  - cbn [filter map fst snd]. rewrite count_cons, plus_INR.
    rewrite (rsum_map_ext _ (fun s => INR (if Z.eqb c a then 1 else 0) * INR (if eqb v s then 1 else 0) + INR (count_class c (map snd (filter (fun p => eqb (fst p) s) L))))%R).
    + rewrite rsum_map_plus, rsum_map_mult, indicator_sum_gen, IH; [ring| |assumption|].
      * intros p Hp. apply I. right; assumption.
      * apply (I (v, a)). left; reflexivity.
    + intros s _. destruct (eqb v s).
      * cbn [map snd]. rewrite count_cons, plus_INR. cbn [INR]. ring.
      * cbn [INR]. ring.
Qed.
Lemma split_term_xlog cs col y n s : NoDup cs -> incl y cs -> (0 < n)%nat ->
  (INR n * ln 2 * split_term cs col y n s)%R
  = (xlog (INR (List.length (labels_at col y s))) - rsum (map (fun c => xlog (INR (count_class c (labels_at col y s)))) cs))%R.
Proof.
  intros N I Hn. assert (Hl := ln2_pos). assert (Hr : (0 < INR n)%R) by (apply lt_0_INR; assumption).
  assert (I' : incl (labels_at col y s) cs).
  { intros a Ha. apply I. unfold labels_at in Ha. apply in_map_iff in Ha. destruct Ha as [[v b] [<- Hb]]. apply filter_In in Hb.
    destruct Hb as [Hb _]. eapply in_combine_r; eassumption. }
  unfold split_term. destruct (labels_at col y s) as [|a part] eqn:E.
  - cbn [List.length INR]. rewrite xlog_0. rewrite rsum_map_zero; [ring|]. intros; unfold count_class, countb; cbn; apply xlog_0.
  - rewrite <- E in *. assert (NE : labels_at col y s <> []) by (rewrite E; discriminate).
    rewrite <- (class_entropy_xlog N I' NE). field. lra.
Qed.
Lemma gain_xlog cs col y splits : NoDup cs -> incl y cs -> y <> [] ->
  (INR (List.length y) * ln 2 * id3_gain cs col y splits (List.length y))%R
  = (xlog (INR (List.length y)) - rsum (map (fun c => xlog (INR (count_class c y))) cs)
     - rsum (map (fun s => xlog (INR (List.length (labels_at col y s))) - rsum (map (fun c => xlog (INR (count_class c (labels_at col y s)))) cs))%R splits))%R.
Proof.
  intros N I NE. assert (L : (0 < List.length y)%nat) by (destruct y; [congruence|cbn; lia]).
  unfold id3_gain. rewrite <- (class_entropy_xlog N I NE).
  assert (E : forall s, In s splits -> (xlog (INR (List.length (labels_at col y s))) - rsum (map (fun c => xlog (INR (count_class c (labels_at col y s)))) cs))%R = (INR (List.length y) * ln 2 * split_term cs col y (List.length y) s)%R)
    by (intros; symmetry; apply split_term_xlog; assumption).
  rewrite (rsum_map_ext _ _ splits E). rewrite rsum_map_mult. ring.
Qed.
Lemma labels_incl col y s cs : incl y cs -> incl (labels_at col y s) cs.
Proof.
  intros I a Ha. apply I. unfold labels_at in Ha. apply in_map_iff in Ha. destruct Ha as [[v b] [<- Hb]]. apply filter_In in Hb.
  destruct Hb as [Hb _]. eapply in_combine_r; eassumption.
Qed.
(** the information gain of a column is never negative *)
Lemma gain_nonneg cs col y splits : NoDup cs -> incl y cs -> y <> [] -> NoDup splits -> incl col splits ->
  List.length col = List.length y -> (0 <= id3_gain cs col y splits (List.length y))%R.
Proof.
  intros N I NE NS IS LE. assert (L : (0 < List.length y)%nat) by (destruct y; [congruence|cbn; lia]).
  assert (LR : (0 < INR (List.length y))%R) by (apply lt_0_INR; assumption). assert (Hl := ln2_pos).
  assert (C : forall c, rsum (map (fun s => INR (count_class c (labels_at col y s))) splits) = INR (count_class c y)).
  { intro c. unfold labels_at. rewrite (@part_count c (zip col y) splits NS).
    - unfold zip. rewrite map_snd_combine by assumption. reflexivity.
    - intros [v b] Hp. apply IS. eapply in_combine_l; eassumption. }
  assert (S : forall s, rsum (map (fun c => INR (count_class c (labels_at col y s))) cs) = INR (List.length (labels_at col y s))).
  { intro s. apply count_total_R; [assumption|]. apply labels_incl. assumption. }
  assert (T : rsum (map (fun s => INR (List.length (labels_at col y s))) splits) = INR (List.length y)).
  { rewrite (rsum_map_ext _ (fun s => rsum (map (fun c => INR (count_class c (labels_at col y s))) cs)) splits) by (intros; symmetry; apply S).
    rewrite rsum_swap. rewrite (rsum_map_ext _ (fun c => INR (count_class c y)) cs) by (intros; apply C). apply count_total_R; assumption. }
  assert (M := @mutual_information cell Z (fun s c => INR (count_class c (labels_at col y s))) splits cs (fun s c => pos_INR _)).
  cbn zeta in M.
  assert (M' : (0 <= INR (List.length y) * ln 2 * id3_gain cs col y splits (List.length y))%R).
  { rewrite (@gain_xlog cs col y splits N I NE).
    rewrite (rsum_map_ext _ (fun c => xlog (rsum (map (fun s => INR (count_class c (labels_at col y s))) splits))) cs) by (intros; rewrite C; reflexivity).
    rewrite (rsum_map_ext _ (fun s => xlog (rsum (map (fun c => INR (count_class c (labels_at col y s))) cs)) - rsum (map (fun c => xlog (INR (count_class c (labels_at col y s)))) cs))%R splits) by (intros; rewrite S; reflexivity).
    rewrite <- T at 1. rewrite (rsum_map_ext _ (fun s => rsum (map (fun c => INR (count_class c (labels_at col y s))) cs)) splits) by (intros; symmetry; apply S).
    apply M. rewrite (rsum_map_ext _ (fun s => INR (List.length (labels_at col y s))) splits) by (intros; apply S). rewrite T. assumption. }
  destruct (Rle_or_lt 0 (id3_gain cs col y splits (List.length y))) as [G|G]; [assumption|exfalso].
  assert (0 < INR (List.length y) * ln 2)%R by (apply Rmult_lt_0_compat; assumption).
  assert (INR (List.length y) * ln 2 * id3_gain cs col y splits (List.length y) < 0)%R; [|lra].
  rewrite <- (Rmult_0_r (INR (List.length y) * ln 2)). apply Rmult_lt_compat_l; assumption.
Qed.

Lemma rsum_superset A (f : A -> R) (l m : list A) : NoDup l -> NoDup m -> incl l m -> (forall x, In x m -> ~ In x l -> f x = 0%R) ->
  rsum (map f l) = rsum (map f m).
Proof.
  revert m. induction l as [|a l IH]; intros m N M I Z.
  - symmetry. apply rsum_map_zero. intros x Hx. apply Z; [assumption|intros []].
  - inversion N as [|? ? Na Nl]; subst. assert (Ha : In a m) by (apply I; left; reflexivity).
    destruct (in_split a m Ha) as (m1 & m2 & ->). assert (P : Permutation (m1 ++ a :: m2) (a :: m1 ++ m2)) by (symmetry; apply Permutation_middle).
    rewrite (@rsum_perm (map f (m1 ++ a :: m2)) (map f (a :: m1 ++ m2))) by (apply Permutation_map; assumption).
    cbn [map]. rewrite !rsum_cons. f_equal. assert (M' : NoDup (a :: m1 ++ m2)) by (eapply Permutation_NoDup; eassumption).
    inversion M' as [|? ? Ma Mm]; subst. apply IH; [assumption|assumption| |].
    + intros x Hx. assert (In x (m1 ++ a :: m2)) by (apply I; right; assumption). apply (Permutation_in _ P) in H. destruct H as [<-|H]; [contradiction|assumption].
    + intros x Hx Hn. apply Z; [apply (Permutation_in _ (Permutation_sym P)); right; assumption|]. intros [<-|H]; contradiction.
Qed.
Lemma times_count c D : times c D = count_class c (map snd D).
Proof.
  unfold times, count_class, countb. induction D as [|[x a] D IH]; [reflexivity|]. cbn [filter map snd]. rewrite (Z.eqb_sym c a).
  destruct (Z.eqb a c); cbn [List.length]; rewrite IH; reflexivity.
Qed.
Lemma count_zero c y : ~ In c y -> count_class c y = 0%nat.
Proof.
  induction y as [|a y IH]; intro H; [reflexivity|]. rewrite count_cons. destruct (Z.eqb_spec c a) as [->|]; [exfalso; apply H; left; reflexivity|].
  apply IH. intro. apply H. right. assumption.
Qed.
Lemma count_pos c y : In c y -> (0 < count_class c y)%nat.
Proof.
  induction y as [|a y IH]; intro H; [destruct H|]. rewrite count_cons. destruct H as [->|H]; [rewrite Z.eqb_refl; lia|]. apply IH in H. lia.
Qed.
(** the entropy of the code is the textbook entropy *)
Lemma class_entropy_bits cs D : NoDup cs -> incl (map snd D) cs -> D <> [] ->
  class_entropy cs (map snd D) (List.length D) = bits D.
Proof.
  intros N I NE. assert (L : (0 < List.length D)%nat) by (destruct D; [congruence|cbn; lia]).
  assert (LR : (0 < INR (List.length D))%R) by (apply lt_0_INR; assumption). assert (Hl := ln2_pos).
  assert (NE' : map snd D <> []) by (destruct D; [congruence|discriminate]).
  assert (E := class_entropy_xlog N I NE'). rewrite map_length in E.
  assert (B : (INR (List.length D) * bits D * ln 2)%R = (xlog (INR (List.length D)) - rsum (map (fun c => xlog (INR (count_class c (map snd D)))) cs))%R).
  { unfold bits. rewrite <- (@rsum_superset Z _ (zunique (map snd D)) cs); [|apply zunique_NoDup|assumption| |].
    - rewrite (rsum_map_ext _ (fun c => (/ INR (List.length D) * / ln 2) * (ln (INR (List.length D)) * INR (count_class c (map snd D)) + (- (1)) * xlog (INR (count_class c (map snd D)))))%R).
      + rewrite rsum_map_mult, rsum_map_plus, !rsum_map_mult, count_total_R; [|apply zunique_NoDup|intros a Ha; apply zunique_In; assumption].
        rewrite map_length. rewrite (xlog_pos LR). field. lra.
      + intros c Hc. rewrite zunique_In in Hc. apply count_pos in Hc. cbn zeta. rewrite times_count.
        assert (0 < INR (count_class c (map snd D)))%R by (apply lt_0_INR; exact Hc). rewrite xlog_pos by assumption. unfold log2.
        rewrite ln_quot. { field. lra. } { assumption. } { assumption. }
    - intros a Ha. apply I, zunique_In. assumption.
    - intros x _ Hn. rewrite count_zero; [cbn; apply xlog_0|]. intro. apply Hn, zunique_In. assumption. }
  rewrite <- B in E. apply (Rmult_eq_reg_l (INR (List.length D))); [|lra]. apply (Rmult_eq_reg_r (ln 2)); [|lra]. exact E.
Qed.
