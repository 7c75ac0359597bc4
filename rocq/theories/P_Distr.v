(** * Proofs for C105-C108 *)
From Verif Require Import Prelude M_Fuzzy M_Discretize M_Rule M_FDT M_ID3 M_Neighborhood M_Sampling M_Genetic M_Utils M_Lore M_Distr S_Distr S_Lore P_Entropy P_FDT P_FuzzyVar P_Counterfactual P_Utils P_Utils2 P_Utils4 P_Genetic P_Lore2 P_Lore3 P_Lore4.
From Coq Require Import Reals Lra Qreals.
From Coq Require DecimalString DecimalNat.
Local Notation eqb := Prelude.eqb.
Set Implicit Arguments.
Open Scope Qc_scope.

(** ** ceiling *)
Lemma ceiling_le r m : (ceiling r <= m)%Z <-> (r <= IZR m)%R.
Proof.
  unfold ceiling. destruct (base_Int_part (- r)) as (A & B). split.
  - intro H. assert (H' : (- m <= Int_part (- r))%Z) by lia. apply IZR_le in H'. rewrite opp_IZR in H'. lra.
  - intro H. assert (K : (- m < Int_part (- r) + 1)%Z); [|lia]. apply lt_IZR. rewrite plus_IZR, opp_IZR. lra.
Qed.
Lemma cube_le (a b : R) : (a <= b)%R <-> (a * a * a <= b * b * b)%R.
Proof.
  assert (E : (b * b * b - a * a * a = (b - a) * (a * a + a * b + b * b))%R) by ring.
  assert (P : (0 <= a * a + a * b + b * b)%R). { replace (a * a + a * b + b * b)%R with ((a + b / 2) * (a + b / 2) + 3 / 4 * (b * b))%R by field. assert (0 <= (a + b / 2) * (a + b / 2))%R by apply Rle_0_sqr. assert (0 <= b * b)%R by apply Rle_0_sqr. lra. }
  split; intro H.
  - assert (0 <= (b - a) * (a * a + a * b + b * b))%R by (apply Rmult_le_pos; lra). lra.
  - destruct (Rle_dec a b) as [|N]; [assumption|]. exfalso. assert (Q : (0 < a * a + a * b + b * b)%R).
    { destruct P as [P|P]; [assumption|]. exfalso. assert (Z : (b * b = 0)%R). { assert (0 <= (a + b / 2) * (a + b / 2))%R by apply Rle_0_sqr. assert (0 <= b * b)%R by apply Rle_0_sqr. replace (a * a + a * b + b * b)%R with ((a + b / 2) * (a + b / 2) + 3 / 4 * (b * b))%R in P by field. lra. }
      apply Rsqr_0_uniq in Z. subst b. assert (Z : (a * a = 0)%R) by lra. apply Rsqr_0_uniq in Z. lra. }
    assert (0 < (a - b) * (a * a + a * b + b * b))%R by (apply Rmult_lt_0_compat; lra). lra.
Qed.
Lemma cbrt n : (0 < n)%nat -> let c := Rpower (INR n) (1 / 3) in (0 < c)%R /\ (c * c * c = INR n)%R.
Proof.
  intros N c. split; [apply exp_pos|]. unfold c. rewrite <- !Rpower_plus. replace (1 / 3 + 1 / 3 + 1 / 3)%R with 1%R by field. apply Rpower_1. apply lt_0_INR. assumption.
Qed.
Lemma qr_qz z : qr (qz z) = IZR z.
Proof.
  unfold qr, qz. cbn [this]. transitivity (Q2R (inject_Z z)); [apply Qeq_eqR, Qred_correct|]. unfold Q2R, inject_Z. cbn. rewrite Rinv_1, Rmult_1_r. reflexivity.
Qed.
Lemma fd_le n (range iqr : Qc) m : (0 < n)%nat -> 0 < iqr ->
  (qr range / (2 * qr iqr / Rpower (INR n) (1 / 3)) <= IZR m)%R <-> range * range * range * qn n <= (qz 2 * iqr * qz m) * (qz 2 * iqr * qz m) * (qz 2 * iqr * qz m).
Proof.
  intros N P. destruct (cbrt N) as (C & CC). cbv zeta in *. set (c := Rpower (INR n) (1 / 3)) in *. apply qr_lt in P. rewrite qr_0 in P.
  rewrite <- qr_le, !qr_mult, !qr_qz, qr_qn, <- CC. set (r := qr range) in *. set (i := qr iqr) in *. replace (r * r * r * (c * c * c))%R with ((r * c) * (r * c) * (r * c))%R by ring. rewrite <- cube_le.
  replace (r / (2 * i / c))%R with ((r * c) / (2 * i))%R by (field; lra). split; intro H.
  - apply Rmult_le_compat_l with (r := (2 * i)%R) in H; [|lra]. replace (2 * i * (r * c / (2 * i)))%R with (r * c)%R in H by (field; lra). exact H.
  - apply Rmult_le_reg_l with (2 * i)%R; [lra|]. replace (2 * i * (r * c / (2 * i)))%R with (r * c)%R by (field; lra). exact H.
Qed.
Lemma log2_le n m : (0 < n)%nat -> (ln (INR n) / ln 2 <= IZR m)%R <-> (Z.of_nat n <= 2 ^ m)%Z.
Proof.
  intro N. assert (L2 : (0 < ln 2)%R) by (rewrite <- ln_1; apply ln_increasing; lra). assert (NP : (1 <= INR n)%R) by (apply (le_INR 1); lia).
  assert (LN : (0 <= ln (INR n))%R). { rewrite <- ln_1. destruct NP as [NP|NP]; [left; apply ln_increasing; lra|rewrite <- NP; right; reflexivity]. }
  destruct (Z_lt_le_dec m 0) as [M|M].
  - split; intro H; exfalso.
    + apply IZR_lt in M. assert (0 <= ln (INR n) / ln 2)%R by (apply Rmult_le_pos; [assumption|left; apply Rinv_0_lt_compat; assumption]). lra.
    + rewrite Z.pow_neg_r in H by assumption. lia.
  - assert (PW : (exp (IZR m * ln 2) = IZR (2 ^ m))%R). { rewrite <- (Z2Nat.id m M). generalize (Z.to_nat m). intro k. clear. induction k as [|k IH]; [cbn; rewrite Rmult_0_l; apply exp_0|]. rewrite Nat2Z.inj_succ, Z.pow_succ_r, mult_IZR, <- IH, succ_IZR by lia. rewrite Rmult_plus_distr_r, exp_plus, Rmult_1_l, exp_ln by lra. ring. }
    rewrite INR_IZR_INZ in *. split; intro H.
    + apply le_IZR. rewrite <- PW. rewrite <- (exp_ln (IZR (Z.of_nat n))) by lra. assert (H' : (ln (IZR (Z.of_nat n)) <= IZR m * ln 2)%R). { apply Rmult_le_compat_r with (r := ln 2) in H; [|lra]. unfold Rdiv in H. rewrite Rmult_assoc, Rinv_l, Rmult_1_r in H by lra. exact H. }
      destruct H' as [H'|H']; [left; apply exp_increasing; assumption|rewrite H'; right; reflexivity].
    + apply IZR_le in H. rewrite <- PW in H. apply Rmult_le_reg_r with (ln 2); [assumption|]. unfold Rdiv. rewrite Rmult_assoc, Rinv_l, Rmult_1_r by lra. rewrite <- (ln_exp (IZR m * ln 2)). destruct H as [H|H]; [left; apply ln_increasing; [lra|assumption]|rewrite H; right; reflexivity].
Qed.

(** ** percentiles *)
Lemma sorted_nth (s : list Qc) i j : StronglySorted (fun a b : Qc => a <= b) s -> (i <= j < List.length s)%nat -> nth i s 0 <= nth j s 0.
Proof.
  intro H. revert i j. induction H as [|a s H IH F]; intros i j (A & B); [cbn in B; lia|]. destruct i as [|i], j as [|j]; [apply Qcle_refl| |lia|apply IH; cbn in B; lia].
  cbn [nth]. rewrite Forall_forall in F. apply F. apply nth_In. cbn in B. lia.
Qed.
Lemma floor_nat (p : Qc) : 0 <= p -> let k := Z.to_nat (Qround.Qfloor (this p)) in qn k <= p /\ p < qn (S k).
Proof.
  intros P k. destruct (floor_spec p) as (A & B). rewrite qz_plus in B. change (qz 1) with 1 in B.
  assert (Z0 : (0 <= Qround.Qfloor (this p))%Z). { assert (H : (-1 < Qround.Qfloor (this p))%Z); [|lia]. apply qz_lt. change (qz (-1)) with (- (1)). qlra. }
  unfold k. rewrite qn_S. unfold qn. rewrite Z2Nat.id by assumption. split; [assumption|]. qlra.
Qed.
Definition at_floor (q : Qc) (x : list Qc) : nat := Z.to_nat (Qround.Qfloor (this (q * qn (List.length x - 1)))).
Lemma at_floor_spec q x : 0 <= q -> q <= 1 -> x <> [] ->
  (at_floor q x <= List.length x - 1)%nat /\ qn (at_floor q x) <= q * qn (List.length x - 1) /\ q * qn (List.length x - 1) < qn (at_floor q x) + 1 /\ q * qn (List.length x - 1) <= qn (List.length x - 1).
Proof.
  intros Q0 Q1 NE. set (n := (List.length x - 1)%nat). assert (N0 : 0 <= qn n) by apply qn_nonneg.
  assert (P0 : 0 <= q * qn n) by (apply Qcmult_nonneg; assumption). assert (P1 : q * qn n <= qn n). { assert (0 <= (1 - q) * qn n) by (apply Qcmult_nonneg; [qlra|assumption]). qlra. }
  destruct (floor_nat P0) as (A & B). cbv zeta in A, B. unfold at_floor. fold n. rewrite qn_S in B. splits; [|assumption|qlra|assumption].
  assert (H : (Z.to_nat (Qround.Qfloor (this (q * qn n))) < S n)%nat); [|lia]. apply Nat2Z.inj_lt, qz_lt. fold (qn (Z.to_nat (Qround.Qfloor (this (q * qn n))))). fold (qn (S n)). rewrite qn_S. qlra.
Qed.
Lemma percentile_between q x : 0 <= q -> q <= 1 -> x <> [] ->
  let s := sort_asc (fun v => v) x in
  nth (at_floor q x) s 0 <= percentile q x /\ percentile q x <= nth (Nat.min (S (at_floor q x)) (List.length x - 1)) s 0.
Proof.
  intros Q0 Q1 NE s. destruct (at_floor_spec Q0 Q1 NE) as (L & A & B & C). assert (LS : List.length s = List.length x) by (unfold s, sort_asc; apply sort_by_length). assert (X0 : (0 < List.length x)%nat) by (destruct x; [congruence|cbn; lia]).
  assert (SS : StronglySorted (fun a b : Qc => a <= b) s) by apply (sort_asc_sorted (fun v => v)). unfold percentile. cbv zeta. fold s. fold (at_floor q x). set (lo := at_floor q x) in *. set (p := q * qn (List.length x - 1)) in *.
  destruct (Nat.lt_ge_cases (S lo) (List.length x)) as [I|I].
  - rewrite Nat.min_l by lia. rewrite (nth_indep s (nth lo s 0) 0) by lia. assert (D : nth lo s 0 <= nth (S lo) s 0) by (apply sorted_nth; [assumption|lia]). generalize dependent (nth lo s 0). generalize dependent (nth (S lo) s 0). intros b a D.
    assert (0 <= (p - qn lo) * (b - a)) by (apply Qcmult_nonneg; qlra). assert (0 <= (qn lo + 1 - p) * (b - a)) by (apply Qcmult_nonneg; qlra). split; qlra.
  - rewrite Nat.min_r by lia. rewrite (nth_overflow s (n := S lo)) by lia. replace (List.length x - 1)%nat with lo by lia. replace (nth lo s 0 - nth lo s 0) with 0 by ring. split; qlra.
Qed.
Lemma percentile_mono q r x : 0 <= q -> q <= r -> r <= 1 -> x <> [] -> percentile q x <= percentile r x.
Proof.
  intros Q0 QR R1 NE. assert (Q1 : q <= 1) by qlra. assert (R0 : 0 <= r) by qlra. destruct (percentile_between Q0 Q1 NE) as (_ & U). destruct (percentile_between R0 R1 NE) as (V & _). cbv zeta in *. destruct (at_floor_spec Q0 Q1 NE) as (L & A & B & C). destruct (at_floor_spec R0 R1 NE) as (L' & A' & B' & C').
  set (s := sort_asc (fun v => v) x) in *. assert (LS : List.length s = List.length x) by (unfold s, sort_asc; apply sort_by_length). assert (X0 : (0 < List.length x)%nat) by (destruct x; [congruence|cbn; lia]).
  assert (SS : StronglySorted (fun a b : Qc => a <= b) s) by apply (sort_asc_sorted (fun v => v)).
  assert (PQ : q * qn (List.length x - 1) <= r * qn (List.length x - 1)). { assert (0 <= (r - q) * qn (List.length x - 1)) by (apply Qcmult_nonneg; [qlra|apply qn_nonneg]). qlra. }
  destruct (Nat.lt_trichotomy (at_floor q x) (at_floor r x)) as [H|[H|H]].
  - eapply Qcle_trans; [exact U|]. eapply Qcle_trans; [|exact V]. apply sorted_nth; [assumption|lia].
  - unfold percentile. cbv zeta. fold s. fold (at_floor q x). fold (at_floor r x). rewrite <- H. set (lo := at_floor q x) in *.
    assert (D : nth lo s 0 <= nth (S lo) s (nth lo s 0)). { destruct (Nat.lt_ge_cases (S lo) (List.length x)) as [I|I]; [|rewrite (nth_overflow s (n := S lo)) by lia; apply Qcle_refl]. rewrite (nth_indep s (nth lo s 0) 0) by lia. apply sorted_nth; [assumption|lia]. }
    generalize dependent (nth (S lo) s (nth lo s 0)). intros b D. assert (0 <= (r * qn (List.length x - 1) - q * qn (List.length x - 1)) * (b - nth lo s 0)) by (apply Qcmult_nonneg; qlra). qlra.
  - exfalso. assert (H' : qn (at_floor r x) + 1 <= qn (at_floor q x)). { rewrite Qcplus_comm, <- qn_S. apply qn_le. lia. } qlra.
Qed.
(** the sorted positions of a value *)
Lemma sorted_value (x : list Qc) v i : let s := sort_asc (fun u => u) x in (below v x <= i)%nat -> (i + above v x < List.length x)%nat -> nth i s 0 = v.
Proof.
  intros s. assert (P : Permutation x s) by apply sort_by_perm. assert (SS : StronglySorted (fun a b : Qc => a <= b) s) by apply (sort_asc_sorted (fun u => u)).
  assert (FP : forall f : Qc -> bool, List.length (filter f x) = List.length (filter f s)). { intro f. clear - P. induction P as [|a l l' P IH|a b l|l l' l'' P IH P' IH']; cbn; [reflexivity|destruct (f a); cbn; congruence|destruct (f a), (f b); reflexivity|congruence]. }
  unfold below, above. rewrite !FP, (Permutation_length P). clear FP P. clearbody s. clear x. revert i. induction SS as [|a s SS IH F]; intros i B A; [cbn in A; lia|]. rewrite Forall_forall in F. cbn [filter List.length] in B, A.
  assert (HI : forall w : Qc, v < w -> (forall u, In u s -> w <= u) -> List.length (filter (fun u => qltb v u) s) = List.length s).
  { intros w W G. clear - W G. induction s as [|u s IH]; [reflexivity|]. cbn [filter]. assert (U : v < u) by (eapply Qclt_le_trans; [exact W|apply G; left; reflexivity]). rewrite (proj2 (qltb_lt v u) U). cbn. f_equal. apply IH. intros z Z. apply G. right. assumption. }
  destruct i as [|i].
  - cbn [nth]. destruct (qltb a v) eqn:E1; [cbn in B; lia|]. apply qltb_ge in E1. destruct (qltb v a) eqn:E2; [|apply qltb_ge in E2; apply Qcle_antisym; assumption]. apply qltb_lt in E2. exfalso. cbn [List.length] in A. rewrite (HI a E2 F) in A. lia.
  - cbn [nth]. apply IH.
    + destruct (qltb a v) eqn:E1; cbn [List.length] in B; [lia|]. apply qltb_ge in E1. assert (LO : filter (fun u => qltb u v) s = []); [|rewrite LO; cbn; lia].
      clear - E1 F. induction s as [|u s IH]; [reflexivity|]. cbn [filter]. assert (U : v <= u) by (eapply Qcle_trans; [exact E1|apply F; left; reflexivity]). rewrite (proj2 (qltb_ge u v) U). apply IH. intros z Z. apply F. right. assumption.
    + destruct (qltb v a) eqn:E; cbn [List.length] in A; lia.
Qed.
(** ** the number of bins *)
Lemma quartiles x : x <> [] -> percentile (qc 1 4) x <= percentile (qc 3 4) x.
Proof. intro NE. apply percentile_mono; [discriminate|discriminate|discriminate|assumption]. Qed.
Lemma estimate_large x : (3 <= List.length x)%nat -> estimate_nbr_bins x = do fd <- freedman_diaconis x; Ok (Z.max fd (ceiling (ln (INR (List.length x)) / ln 2) + 1)).
Proof.
  intro L. unfold estimate_nbr_bins, struges. rewrite (proj2 (Nat.eqb_neq _ 1)), (proj2 (Nat.ltb_lt 2 _)), (proj2 (Nat.eqb_neq _ 0)) by lia. destruct (freedman_diaconis x); reflexivity.
Qed.
Lemma estimate_spread x hi lo : (3 <= List.length x)%nat -> percentile (qc 1 4) x <> percentile (qc 3 4) x -> qmaximum x = Ok hi -> qminimum x = Ok lo ->
  exists k, estimate_nbr_bins x = Ok k /\ forall m, (k <= m)%Z <-> enough (List.length x) (hi - lo) (percentile (qc 3 4) x - percentile (qc 1 4) x) m.
Proof.
  intros L Q HI LO. rewrite (@estimate_large x L). unfold freedman_diaconis. cbv zeta. rewrite HI, LO. cbn [bind]. assert (NE : x <> []) by (destruct x; [cbn in L; lia|discriminate]). assert (QL := quartiles NE).
  destruct (qeqb (percentile (qc 3 4) x - percentile (qc 1 4) x) 0) eqn:E. { apply qeqb_eq in E. exfalso. apply Q. apply Qcle_antisym; [assumption|]. generalize dependent (percentile (qc 3 4) x). generalize (percentile (qc 1 4) x). intros. qlra. }
  apply qeqb_neq in E. assert (P : 0 < percentile (qc 3 4) x - percentile (qc 1 4) x). { generalize dependent (percentile (qc 3 4) x). generalize dependent (percentile (qc 1 4) x). intros a b N1 N2 N3. destruct (Qclt_le_dec 0 (b - a)) as [H|H]; [assumption|]. exfalso. apply N1. apply Qcle_antisym; [assumption|]. qlra. }
  cbn [bind]. eexists. split; [reflexivity|]. intro m. unfold enough. rewrite Z.max_lub_iff, ceiling_le, (@fd_le (List.length x) (hi - lo) _ m) by (lia || assumption).
  assert (LG : (ceiling (ln (INR (List.length x)) / ln 2) + 1 <= m)%Z <-> (Z.of_nat (List.length x) <= 2 ^ (m - 1))%Z). { rewrite <- (@log2_le (List.length x) (m - 1)) by lia. rewrite <- ceiling_le. lia. } tauto.
Qed.
Lemma estimate_flat x hi lo : (3 <= List.length x)%nat -> percentile (qc 1 4) x = percentile (qc 3 4) x -> qmaximum x = Ok hi -> qminimum x = Ok lo ->
  estimate_nbr_bins x = Err (if qeqb hi lo then ValueError else OverflowError).
Proof.
  intros L Q HI LO. rewrite (@estimate_large x L). unfold freedman_diaconis. cbv zeta. rewrite HI, LO, Q. cbn [bind]. rewrite (proj2 (qeqb_eq _ 0)) by ring.
  destruct (qeqb hi lo) eqn:E; [apply qeqb_eq in E|apply qeqb_neq in E].
  - rewrite (proj2 (qeqb_eq _ 0)); [reflexivity|]. subst. ring.
  - rewrite (proj2 (qeqb_neq _ 0)); [reflexivity|]. intro H. apply E. apply Qcle_antisym; qlra.
Qed.
Lemma common_value x v : (3 <= List.length x)%nat -> (4 * below v x <= List.length x - 1)%nat -> (4 * above v x <= List.length x - 1)%nat -> percentile (qc 1 4) x = v /\ percentile (qc 3 4) x = v.
Proof.
  intros L B A. assert (NE : x <> []) by (destruct x; [cbn in L; lia|discriminate]).
  assert (K : forall q, 0 <= q -> q <= 1 -> qn (below v x) <= q * qn (List.length x - 1) -> q * qn (List.length x - 1) + qn (above v x) <= qn (List.length x - 1) -> percentile q x = v).
  { intros q Q0 Q1 H1 H2. destruct (percentile_between Q0 Q1 NE) as (U & V). cbv zeta in U, V. destruct (at_floor_spec Q0 Q1 NE) as (F & F1 & F2 & F3).
    assert (B' : (below v x <= at_floor q x)%nat). { assert (H : (below v x < S (at_floor q x))%nat); [|lia]. apply Nat2Z.inj_lt, qz_lt. fold (qn (below v x)). fold (qn (S (at_floor q x))). rewrite qn_S. qlra. }
    destruct (Qc_eq_dec (q * qn (List.length x - 1)) (qn (at_floor q x))) as [E|E].
    - assert (A' : (at_floor q x + above v x <= List.length x - 1)%nat). { apply Nat2Z.inj_le, qz_le. fold (qn (at_floor q x + above v x)). fold (qn (List.length x - 1)). rewrite qn_plus. rewrite <- E. assumption. }
      unfold percentile. cbv zeta. fold (at_floor q x). rewrite E. rewrite (@sorted_value x v (at_floor q x)) by lia. ring.
    - assert (A' : (at_floor q x + above v x < List.length x - 1)%nat). { apply Nat2Z.inj_lt, qz_lt. fold (qn (at_floor q x + above v x)). fold (qn (List.length x - 1)). rewrite qn_plus. assert (E' : qn (at_floor q x) < q * qn (List.length x - 1)) by (apply Qcle_lt_or_eq in F1; destruct F1 as [F1|F1]; [assumption|congruence]). qlra. }
      rewrite (@sorted_value x v (at_floor q x)) in U by lia. rewrite (@sorted_value x v (Nat.min (S (at_floor q x)) (List.length x - 1))) in V by lia. apply Qcle_antisym; assumption. }
  assert (B4 : qz 4 * qn (below v x) <= qn (List.length x - 1)). { apply qn_le in B. replace (4 * below v x)%nat with (below v x + below v x + below v x + below v x)%nat in B by lia. rewrite !qn_plus in B. replace (qz 4 * qn (below v x)) with (qn (below v x) + qn (below v x) + qn (below v x) + qn (below v x)); [assumption|]. replace (qz 4) with (1 + 1 + 1 + 1) by reflexivity. ring. }
  assert (A4 : qz 4 * qn (above v x) <= qn (List.length x - 1)). { apply qn_le in A. replace (4 * above v x)%nat with (above v x + above v x + above v x + above v x)%nat in A by lia. rewrite !qn_plus in A. replace (qz 4 * qn (above v x)) with (qn (above v x) + qn (above v x) + qn (above v x) + qn (above v x)); [assumption|]. replace (qz 4) with (1 + 1 + 1 + 1) by reflexivity. ring. }
  assert (E4 : qz 4 = 1 + 1 + 1 + 1) by reflexivity. rewrite E4 in *. assert (N0 := qn_nonneg (List.length x - 1)). assert (A0 := qn_nonneg (above v x)). assert (B0 := qn_nonneg (below v x)).
  assert (E1 : qc 1 4 * (1 + 1 + 1 + 1) = 1) by qex. assert (E3 : qc 3 4 = qc 1 4 + qc 1 4 + qc 1 4) by qex.
  assert (W : forall z, qc 1 4 * z + qc 1 4 * z + qc 1 4 * z + qc 1 4 * z = z) by (intro z; transitivity ((qc 1 4 * (1 + 1 + 1 + 1)) * z); [ring|rewrite E1; ring]).
  assert (WN := W (qn (List.length x - 1))). assert (K3 := K (qc 3 4)). rewrite E3 in K3 at 3. rewrite E3 in K3 at 3.
  assert (K1 := K (qc 1 4)). clear - K1 K3 WN B4 A4 A0 B0 N0.
  generalize dependent (qn (List.length x - 1)). generalize dependent (qn (above v x)). generalize dependent (qn (below v x)).
  intros b B0 a A0 n N0 B4 A4 WN K1 K3.
  split; [apply K3|apply K1]; try discriminate; clear K1 K3; generalize dependent (qc 1 4); intros; rewrite ?Qcmult_plus_distr_l; qlra.
Qed.
(** ** the best fit *)
Lemma contest_spec attempt0 data bins names : let attempt := attempt0 data bins in let contest := fit_among attempt0 data bins names in
  (snd contest = None /\ fst contest = ("norm"%string, [0; 1]) /\ winner names (error_of attempt) None) \/
  (exists d params s, contest = ((d, params), Some s) /\ attempt d = Some (params, Some s) /\ winner names (error_of attempt) (Some d)).
Proof.
  unfold fit_among. cbv zeta. generalize (attempt0 data bins). intro attempt. clear attempt0 data bins.
  induction names as [|d l IH] using rev_ind. { left. splits; [reflexivity|reflexivity|]. intros d s []. }
  rewrite fold_left_app. cbn [fold_left]. set (acc := fold_left _ l _) in *.
  assert (KEEP : (forall s, error_of attempt d = Some s -> match snd acc with None => s <= 0 | Some b => 0 < s -> b <= s end) ->
     (snd acc = None /\ fst acc = ("norm"%string, [0; 1]) /\ winner (l ++ [d]) (error_of attempt) None) \/
     (exists d0 params s, acc = ((d0, params), Some s) /\ attempt d0 = Some (params, Some s) /\ winner (l ++ [d]) (error_of attempt) (Some d0))).
  { intro H. destruct IH as [(A & B & C)|(d0 & params & s & A & B & C)].
    - left. splits; [assumption|assumption|]. intros d' s I E. rewrite in_app_iff in I. destruct I as [I|[<-|[]]]; [eapply C; eassumption|]. specialize (H s E). rewrite A in H. assumption.
    - right. exists d0, params, s. splits; [assumption|assumption|]. destruct C as (bf & af & s0 & E0 & E1 & E2 & E3 & E4). exists bf, (af ++ [d]), s0. rewrite E0, <- app_assoc. splits; [reflexivity|assumption|assumption|assumption|].
      intros d' s' I E P. rewrite in_app_iff in I. destruct I as [I|[<-|[]]]; [eapply E4; eassumption|]. specialize (H s' E). rewrite A in H. cbn [snd] in H. unfold error_of in E1. rewrite B in E1. assert (s0 = s) by congruence. subst s0. auto. }
  destruct (attempt d) as [[params [sse|]]|] eqn:AT; [|apply KEEP; unfold error_of; rewrite AT; discriminate|apply KEEP; unfold error_of; rewrite AT; discriminate].
  assert (ED : error_of attempt d = Some sse) by (unfold error_of; rewrite AT; reflexivity).
  destruct (match snd acc with Some b => qltb sse b | None => true end && qltb 0 sse) eqn:T.
  - rewrite andb_true_iff in T. destruct T as (T1 & T2). apply qltb_lt in T2. right. exists d, params, sse. splits; [reflexivity|assumption|]. exists l, [], sse. splits; [reflexivity|assumption|assumption| |intros d' s' []].
    intros d' s' I E P. destruct IH as [(A & B & C)|(d0 & params0 & s & A & B & C)]; [exfalso; specialize (C d' s' I E); qlra|]. rewrite A in T1. cbn [snd] in T1. apply qltb_lt in T1.
    destruct C as (bf & af & s0 & E0 & E1 & E2 & E3 & E4). unfold error_of in E1. rewrite B in E1. assert (s0 = s) by congruence. subst s0. rewrite E0, in_app_iff in I. destruct I as [I|[<-|I]].
    + specialize (E3 d' s' I E P). qlra.
    + unfold error_of in E. rewrite B in E. assert (s' = s) by congruence. subst. assumption.
    + specialize (E4 d' s' I E P). qlra.
  - apply KEEP. intros s E. assert (s = sse) by congruence. subst s. rewrite andb_false_iff in T. destruct (snd acc) as [b|]; [intro P|]; (destruct T as [T|T]; [try discriminate; apply qltb_ge in T; try assumption|apply qltb_ge in T; try assumption]). exfalso. qlra.
Qed.
Lemma linspace_evenly a b size : evenly a b size (linspace a b size).
Proof.
  unfold evenly, linspace. assert (N : forall i u, nth_error (map (fun i => a + qn i * ((b - a) / qn (size - 1))) (seq 0 size)) i = Some u -> u = a + qn i * ((b - a) / qn (size - 1))).
  { intros i u H. rewrite nth_error_map in H. destruct (nth_error (seq 0 size) i) as [k|] eqn:E; [|discriminate]. assert (B : (i < size)%nat) by (rewrite <- (seq_length size 0); apply nth_error_Some; congruence). apply nth_error_nth with (d := 0%nat) in E. rewrite seq_nth in E by assumption. cbn in H, E. subst k. congruence. }
  splits.
  - rewrite map_length, seq_length. reflexivity.
  - intro P. destruct size as [|n]; [lia|]. cbn [seq map nth_error]. f_equal. rewrite qn_0. ring.
  - intro P. rewrite nth_error_map, (nth_error_nth' _ 0%nat) by (rewrite seq_length; lia). cbn [option_map]. rewrite seq_nth by lia. cbn [plus]. f_equal. assert (Q : 0 < qn (size - 1)) by (apply qn_pos; lia). rewrite Qcmult_comm, Qcdiv_mult by (intro E; rewrite E in Q; discriminate). ring.
  - exists ((b - a) / qn (size - 1)). intros i u v U V. rewrite (N _ _ U), (N _ _ V), qn_S. ring.
Qed.
Lemma get_distr_inv attempt ppf x size l : get_distr_values attempt ppf x size = Ok l ->
  exists bins, estimate_nbr_bins x = Ok bins /\ let np := best_fit_distribution attempt x bins in l = linspace (ppf (fst np) (snd np) (qc 1 100)) (ppf (fst np) (snd np) (qc 99 100)) size.
Proof.
  unfold get_distr_values. destruct (estimate_nbr_bins x) as [bins|]; [|discriminate]. cbn [bind]. intro H. exists bins. split; [reflexivity|]. cbv zeta. revert H. generalize (best_fit_distribution attempt x bins). intros (nm & ps) H. injection H as <-. reflexivity.
Qed.
Lemma get_distr_length attempt ppf x size l : get_distr_values attempt ppf x size = Ok l -> List.length l = size.
Proof. intro H. apply get_distr_inv in H. destruct H as (bins & _ & ->). unfold linspace. rewrite map_length, seq_length. reflexivity. Qed.
(** ** calculate_feature_values with flags *)
Section Values.
  Variables (attempt : list Qc -> Z -> string -> option (list Qc * option Qc)) (ppf : string -> list Qc -> Qc -> Qc).
  Variables (up est : bool) (normal : nat -> nat -> Qc) (choice : nat -> nat -> nat).
  Definition flag_step (X : list (list Qc)) (discrete continuous : list string) (size : nat) (st : dict nat (list Qc) * option (list Qc)) (ic : nat * string) :=
    let '(i, col) := ic in
    do values <- qcolumn X i;
    do new_values <-
      (if memb col discrete then
         if up then do drawn <- np_choice (choice i) (qunique values) size true; Ok (values ++ drawn)
         else Ok (qunique values)
       else if memb col continuous then
         do new <- (if est then get_distr_values attempt ppf values size else Ok (map (normal i) (seq 0 size)));
         Ok (values ++ new)
       else ret_opt NameError (snd st));
    Ok (dset i new_values (fst st), Some new_values).
  Lemma flags_eq X columns cls discrete continuous size : calculate_values attempt ppf up est normal choice X columns cls discrete continuous size =
    do columns1 <- list_remove cls columns; do st <- foldM (flag_step X discrete continuous size) ([], None) (enumerate columns1); Ok (fst st).
  Proof. reflexivity. Qed.
  (** what the entry of column [i], called [c], holds *)
  Definition flag_listed (X : list (list Qc)) (discrete continuous : list string) (size : nat) (fv : dict nat (list Qc)) (i : nat) (c : string) (vs : list Qc) : Prop :=
    exists values, column_values X i values /\
      (In c discrete -> if up then exists drawn, List.length drawn = size /\ vs = values ++ drawn /\ forall v, In v drawn -> In v values
                        else StronglySorted Qclt vs /\ forall v, In v vs <-> In v values) /\
      (~ In c discrete -> In c continuous -> exists new, List.length new = size /\ vs = values ++ new /\ (est = true -> get_distr_values attempt ppf values size = Ok new)) /\
      (~ In c discrete -> ~ In c continuous -> exists j, i = S j /\ dget j fv = Some vs).
  Lemma flags_spec X columns cls discrete continuous size fv : NoDup columns -> calculate_values attempt ppf up est normal choice X columns cls discrete continuous size = Ok fv ->
    In cls columns /\ dkeys fv = seq 0 (List.length columns - 1) /\
    forall i c, nth_error (filter (fun c => negb (eqb c cls)) columns) i = Some c -> exists vs, dget i fv = Some vs /\ flag_listed X discrete continuous size fv i c vs.
  Proof.
    intros N H. rewrite flags_eq in H. destruct (list_remove cls columns) as [cols|] eqn:R; [|discriminate]. cbn [bind] in H.
    assert (LC : List.length cols = (List.length columns - 1)%nat).
    { clear - R. revert cols R. induction columns as [|y l IH]; intros cols R; [discriminate|]. cbn in R. destruct (eqb y cls); [injection R as <-; cbn; lia|]. destruct (list_remove cls l) as [r|] eqn:E; [|discriminate]. cbn in R. injection R as <-. cbn. specialize (IH r eq_refl). destruct l; [discriminate|]. cbn in *. lia. }
    apply list_remove_filter in R; [|assumption]. destruct R as (I & <-).
    destruct (foldM (flag_step X discrete continuous size) ([], None) (enumerate cols)) as [st|] eqn:F; [|discriminate]. cbn [bind] in H. injection H as <-.
    split; [assumption|]. rewrite <- LC.
    pose (Inv := fun k (st : dict nat (list Qc) * option (list Qc)) => dkeys (fst st) = seq 0 k /\
      (snd st = match k with O => None | S j => dget j (fst st) end) /\
      forall i c, (i < k)%nat -> nth_error cols i = Some c -> exists vs, dget i (fst st) = Some vs /\ flag_listed X discrete continuous size (fst st) i c vs).
    assert (G : Inv (List.length cols) st).
    { revert F. apply (foldM_enum Inv); [|split; [reflexivity|]; split; [reflexivity|]; intros; lia].
      intros i c (d & last) st' Nc (K & Lst & P) E. cbn [fst snd] in K, Lst, P. unfold flag_step in E. cbn [fst snd] in E. destruct (qcolumn X i) as [values|] eqn:Q; [|discriminate]. apply qcolumn_spec in Q. cbn [bind] in E.
      assert (NI : ~ In i (dkeys d)) by (rewrite K, in_seq; lia).
      assert (KD : forall v, dkeys (dset i v d) = seq 0 (S i)). { intro v. rewrite dset_keys, (proj2 (@memb_not_In _ _ i (dkeys d)) NI), K. rewrite seq_S. reflexivity. }
      assert (OLD : forall v i' c', (i' < i)%nat -> nth_error cols i' = Some c' -> exists vs, dget i' (dset i v d) = Some vs /\ flag_listed X discrete continuous size (dset i v d) i' c' vs).
      { intros v i' c' L' N'. destruct (P i' c' L' N') as (vs & D & (vals & CV & A & B & C)). exists vs. split; [rewrite dset_other by lia; assumption|]. exists vals. splits; try assumption. intros U V. destruct (C U V) as (j & J & Dj). exists j. split; [assumption|]. rewrite dset_other by lia. assumption. }
      assert (FIN : forall v, flag_listed X discrete continuous size (dset i v d) i c v -> Inv (S i) (dset i v d, Some v)).
      { intros v L'. unfold Inv. cbn [fst snd]. split; [apply KD|]. split; [rewrite dset_same; reflexivity|]. intros i' c' Li N'. destruct (Nat.eq_dec i' i) as [->|]; [|apply OLD; [lia|assumption]]. assert (c' = c) by congruence. subst c'. exists v. split; [apply dset_same|assumption]. }
      match type of E with bind ?r _ = _ => destruct r as [nv|] eqn:V; [|discriminate] end. cbn [bind] in E. injection E as <-. apply FIN. exists values. split; [assumption|].
      destruct (memb c discrete) eqn:MD; [|destruct (memb c continuous) eqn:MC].
      - apply (proj1 (@memb_In _ _ c discrete)) in MD. splits; [|intros U; contradiction|intros U; contradiction]. intros _. destruct up.
        + destruct (np_choice (choice i) (qunique values) size true) as [drawn|] eqn:NC; [|discriminate]. cbn [bind] in V. injection V as <-. apply np_choice_spec in NC. destruct NC as (NL & NV). exists drawn. splits; [assumption|reflexivity|]. intros v Iv. apply qunique_In. auto.
        + injection V as <-. split; [apply qunique_sorted|intro v; apply qunique_In].
      - apply (proj1 (@memb_not_In _ _ c discrete)) in MD. apply (proj1 (@memb_In _ _ c continuous)) in MC. splits; [intros U; contradiction| |intros _ U; contradiction]. intros _ _.
        match type of V with bind ?r _ = _ => destruct r as [new|] eqn:W; [|discriminate] end. cbn [bind] in V. injection V as <-. exists new. destruct est.
        + splits; [|reflexivity|intros _; assumption]. apply get_distr_length in W. assumption.
        + injection W as <-. splits; [rewrite map_length, seq_length; reflexivity|reflexivity|discriminate].
      - destruct last as [v|]; [|discriminate]. cbn [ret_opt] in V. injection V as <-. apply (proj1 (@memb_not_In _ _ c discrete)) in MD. apply (proj1 (@memb_not_In _ _ c continuous)) in MC. splits; [intros U; contradiction|intros _ U; contradiction|]. intros _ _. destruct i as [|j]; [discriminate|]. exists j. split; [reflexivity|]. rewrite dset_other by lia. congruence. }
    destruct G as (K & _ & P). split; [assumption|]. intros i c Nc. apply P; [apply nth_error_Some; congruence|assumption].
  Qed.
End Values.
Lemma foldM_ext_in {S A} (f g : S -> A -> res S) (l : list A) s : (forall s a, In a l -> f s a = g s a) -> foldM f s l = foldM g s l.
Proof. revert s. induction l as [|a l IH]; intros s H; [reflexivity|]. cbn [foldM]. rewrite H by (left; reflexivity). destruct (g s a); [cbn [bind]; apply IH; intros; apply H; right; assumption|reflexivity]. Qed.
Lemma flags_off attempt ppf normal choice X columns cls discrete continuous size :
  calculate_values attempt ppf false false normal choice X columns cls discrete continuous size = calculate_feature_values normal X columns cls discrete continuous size.
Proof.
  rewrite flags_eq, calculate_eq. destruct (list_remove cls columns) as [cols|]; [|reflexivity]. cbn [bind]. rewrite (@foldM_ext_in _ _ _ (value_step normal X discrete continuous size)); [reflexivity|]. intros st (i & c) _. unfold flag_step, value_step.
  destruct (qcolumn X i) as [values|]; [|reflexivity]. cbn [bind]. destruct (memb c discrete); [reflexivity|]. destruct (memb c continuous); reflexivity.
Qed.
(** the call raises what the step raises for some column *)
Lemma foldM_fails {S A} (f : S -> A -> res S) (l : list A) s a e : In a l -> (forall s, f s a = Err e) -> exists e', foldM f s l = Err e'.
Proof.
  intros I F. revert s I. induction l as [|b l IH]; intros s I; [destruct I|]. cbn [foldM]. destruct I as [->|I]; [rewrite F; cbn; eauto|]. destruct (f s b) as [s1|e1]; [cbn [bind]; apply IH; assumption|cbn; eauto].
Qed.

(** ** artificial features *)
Lemma string_app_inj (p a b : string) : (p ++ a)%string = (p ++ b)%string -> a = b.
Proof. induction p as [|c p IH]; cbn; [auto|]. intro H. injection H as H. auto. Qed.
Lemma art_name_inj p i j : art_name p i = art_name p j -> i = j.
Proof.
  intro H. apply string_app_inj in H. apply DecimalNat.Unsigned.to_uint_inj. assert (NN : forall k, Nat.to_uint k <> Decimal.Nil).
  { intros k E. assert (K := DecimalNat.Unsigned.of_to k). rewrite E in K. cbn in K. subst k. discriminate. }
  assert (E := f_equal DecimalString.NilZero.uint_of_string H). rewrite !DecimalString.NilZero.usu in E by apply NN. congruence.
Qed.
Lemma mark_types (v : string) names (d : dict string string) n : dget n (fold_left (fun d n => dset n v d) names d) = if memb n names then Some v else dget n d.
Proof.
  revert d. induction names as [|m l IH]; intro d; [reflexivity|]. cbn [fold_left]. rewrite IH. cbn [memb existsb]. destruct (memb n l) eqn:E; [unfold memb in *; cbn; rewrite E, orb_true_r; reflexivity|]. unfold memb in *. cbn. rewrite E, orb_false_r.
  destruct (eqb n m) eqn:Q; [apply (proj1 (@Prelude.eqb_eq _ _ n m)) in Q; subst; apply dset_same|]. apply dset_other. intro H. apply (proj1 (@Prelude.eqb_neq _ _ n m)) in Q. congruence.
Qed.
Lemma art_names_nodup p n : NoDup (map (art_name p) (seq 0 n)).
Proof. apply FinFun.Injective_map_NoDup; [intros i j; apply art_name_inj|apply seq_NoDup]. Qed.
Lemma art_names_disjoint i j : art_name "artificial_disc_" i <> art_name "artificial_cont_" j.
Proof. unfold art_name. cbn. intro H. discriminate. Qed.
Lemma prefix_app p s : String.prefix p (p ++ s)%string = true.
Proof. induction p as [|c p IH]; [destruct s; reflexivity|]. cbn. destruct (Ascii.ascii_dec c c); [assumption|congruence]. Qed.
Lemma list_remove_length x l r : list_remove x l = Ok r -> (List.length l = S (List.length r))%nat.
Proof. revert r. induction l as [|y l IH]; intros r H; [discriminate|]. cbn in H. destruct (eqb y x); [injection H as <-; reflexivity|]. destruct (list_remove x l) as [r'|]; [|discriminate]. cbn in H. injection H as <-. cbn. f_equal. apply IH. reflexivity. Qed.
Lemma list_remove_ok x l : (In x l -> exists r, list_remove x l = Ok r) /\ (~ In x l -> list_remove x l = Err ValueError).
Proof.
  induction l as [|y l (IH1 & IH2)]; [split; [intros []|reflexivity]|]. cbn. destruct (eqb y x) eqn:E.
  - apply (proj1 (@Prelude.eqb_eq _ _ y x)) in E. subst. split; [eauto|intros []; auto].
  - apply (proj1 (@Prelude.eqb_neq _ _ y x)) in E. split.
    + intros [H|H]; [congruence|]. destruct (IH1 H) as (r & ->). cbn. eauto.
    + intro N. rewrite IH2; [reflexivity|auto].
Qed.
