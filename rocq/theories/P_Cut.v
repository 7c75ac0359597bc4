(** * Proofs about equal-width and equal-frequency divisions (C126) *)
From Verif Require Import Prelude M_Fuzzy M_Discretize M_Rule M_FDT M_Neighborhood M_Lore M_Distr M_Cut S_Cut P_FuzzySet P_FuzzyVar P_Utils P_Utils4 S_Lore P_Lore P_Distr.
From Coq Require Import Reals.
Local Notation eqb := Prelude.eqb.
Open Scope Qc_scope.

Lemma qz_mult a b : qz (a * b) = qz a * qz b.
Proof. unfold qz. apply Qc_is_canon. rewrite this_mult, !this_Q2Qc, inject_Z_mult. reflexivity. Qed.
Lemma ten_S d : ten (S d) = qz 10 * ten d.
Proof. unfold ten. rewrite Nat2Z.inj_succ, Z.pow_succ_r by lia. apply qz_mult. Qed.
Lemma ten_pos d : 0 < ten d.
Proof. unfold ten. change 0 with (qz 0). apply qz_lt. apply Z.pow_pos_nonneg; lia. Qed.
Lemma ten_0 : ten 0 = 1. Proof. reflexivity. Qed.
Lemma ten_plus a b : ten (a + b) = ten a * ten b.
Proof. induction a as [|a IH]; [cbn [Nat.add]; rewrite ten_0; ring|]. cbn [Nat.add]. rewrite !ten_S, IH. ring. Qed.
Lemma ten_le a b : (a <= b)%nat -> ten a <= ten b.
Proof. intro H. unfold ten. apply qz_le. apply Z.pow_le_mono_r; lia. Qed.
Lemma np_round_z z : np_round (qz z) = z.
Proof.
  apply (@nearest_even_unique (qz z)); [apply np_round_spec|]. split.
  - replace (qz z - qz z) with 0 by ring. discriminate.
  - replace (qz z - qz z) with 0 by ring. intro H. vm_compute in H. discriminate.
Qed.
Lemma np_round_opp q : np_round (- q) = (- np_round q)%Z.
Proof.
  apply (@nearest_even_unique (- q)); [apply np_round_spec|]. destruct (np_round_spec q) as [A B]. split.
  - rewrite qz_opp. replace (- q - - qz (np_round q)) with (- (q - qz (np_round q))) by ring. replace (qabs (- (q - qz (np_round q)))) with (qabs (q - qz (np_round q))) by (unfold qabs; qcase; qlra). exact A.
  - intro H. rewrite Z.even_opp. apply B. rewrite <- H. rewrite qz_opp. unfold qabs; qcase; qlra.
Qed.

(** numpy.around *)
Lemma around_mono d a b : a <= b -> around d a <= around d b.
Proof.
  intro H. unfold around. assert (T := ten_pos d). apply Qcdiv_le; [assumption|]. rewrite Qcdiv_mult by (intro E; rewrite E in T; discriminate T).
  apply qz_le. apply np_round_mono. assert (0 <= ten d) by qlra. apply Qcmult_le_compat_r; assumption.
Qed.
Lemma around_grid d x z : x * ten d = qz z -> around d x = x.
Proof.
  intro H. unfold around. rewrite H, np_round_z, <- H. assert (T := ten_pos d). field. intro E; rewrite E in T; discriminate T.
Qed.
Lemma around_on_grid d x : around d x * ten d = qz (np_round (x * ten d)).
Proof. unfold around. apply Qcdiv_mult. assert (T := ten_pos d). intro E; rewrite E in T; discriminate T. Qed.
Lemma around_opp d x : around d (- x) = - around d x.
Proof. unfold around. replace (- x * ten d) with (- (x * ten d)) by ring. rewrite np_round_opp, qz_opp. unfold Qcdiv. ring. Qed.
Lemma abs_scale a x t : 0 < t -> qabs (a - x) * t = qabs (a * t - x * t).
Proof.
  intro T. replace (a * t - x * t) with ((a - x) * t) by ring. unfold qabs. destruct (qltb_spec (a - x) 0) as [L|L], (qltb_spec ((a - x) * t) 0) as [M|M]; try ring; exfalso.
  - assert (0 < (0 - (a - x)) * t) by (apply Qcmult_pos; qlra). qlra.
  - assert (0 <= (a - x) * t) by (apply Qcmult_nonneg; qlra). qlra.
Qed.
Lemma round_near q : qabs (qz (np_round q) - q) <= qc 1 2.
Proof. rewrite qabs_sym. exact (proj1 (np_round_spec q)). Qed.
Lemma around_near d x : qabs (around d x - x) * ten d <= qc 1 2.
Proof.
  generalize (around_on_grid d x), (round_near (x * ten d)), (ten_pos d). generalize (around d x), (ten d), (np_round (x * ten d)). intros a t z G N T.
  rewrite (abs_scale _ _ _ T), G. exact N.
Qed.

(** ** the place of the first significant decimal *)
Lemma leading_spec fuel : forall x, 0 < x -> x < 1 -> 1 <= x * ten fuel ->
  let m := leading fuel x in (1 <= m)%nat /\ 1 <= x * ten m /\ x * ten (m - 1) < 1.
Proof.
  induction fuel as [|fuel IH]; intros x P L H; [rewrite ten_0 in H; exfalso; qlra|]. cbn [leading]. destruct (qleb_spec 1 (x * qz 10)) as [A|A].
  - split; [lia|]. split; [exact A|]. cbn [Nat.sub]. rewrite ten_0, Qcmult_1_r. exact L.
  - destruct (IH (x * qz 10)) as (M1 & M2 & M3).
    + apply Qcmult_pos; [assumption|reflexivity].
    + exact A.
    + rewrite ten_S in H. replace (x * qz 10 * ten fuel) with (x * (qz 10 * ten fuel)) by ring. exact H.
    + cbv zeta. set (m := leading fuel (x * qz 10)) in *. split; [lia|]. split.
      * rewrite ten_S. replace (x * (qz 10 * ten m)) with (x * qz 10 * ten m) by ring. exact M2.
      * replace (S m - 1)%nat with (S (m - 1)) by lia. rewrite ten_S. replace (x * (qz 10 * ten (m - 1))) with (x * qz 10 * ten (m - 1)) by ring. exact M3.
Qed.
Lemma size_pow p : (Z.pos p < 2 ^ Z.of_nat (Pos.size_nat p))%Z.
Proof.
  induction p as [p IH|p IH|]; cbn [Pos.size_nat]; [| |reflexivity]; rewrite Nat2Z.inj_succ, Z.pow_succ_r by lia; lia.
Qed.
Lemma fuel_enough x : 0 < x -> 1 <= x * ten (Pos.size_nat (Qden (this x))).
Proof.
  destruct x as [[n d] C]. cbn [this Qden]. intro H. unfold Qclt in H. cbn [this] in H. rewrite this_Q2Qc in H. unfold Qlt in H. cbn [Qnum Qden] in H.
  unfold Qcle. rewrite this_mult. cbn [this]. unfold ten, qz. rewrite !this_Q2Qc. unfold Qle, Qmult, inject_Z. cbn [Qnum Qden].
  assert (A := size_pow d). assert (B : (2 ^ Z.of_nat (Pos.size_nat d) <= 10 ^ Z.of_nat (Pos.size_nat d))%Z) by (apply Z.pow_le_mono_l; lia).
  remember (10 ^ Z.of_nat (Pos.size_nat d))%Z as t. clear Heqt. rewrite Pos.mul_1_r. nia.
Qed.
Definition lead (x : Qc) : nat := leading (Pos.size_nat (Qden (this x))) (qabs x).
Lemma abs_den x : Qden (this (qabs x)) = Qden (this x).
Proof.
  unfold qabs. destruct (qltb x 0); [|reflexivity]. assert (Q : this (- x) = Qopp (this x)); [|rewrite Q; reflexivity]. unfold Qcopp, Q2Qc. cbn [this]. rewrite Qreduction.Qred_opp. f_equal. apply canon.
Qed.
Lemma lead_spec x : x <> 0 -> qabs x < 1 -> (1 <= lead x)%nat /\ 1 <= qabs x * ten (lead x) /\ qabs x * ten (lead x - 1) < 1.
Proof.
  intros N L. assert (P : 0 < qabs x) by (unfold qabs; qcase; try qlra; destruct (Qc_dec x 0) as [[Q|Q]|Q]; try qlra; contradiction).
  unfold lead. rewrite <- abs_den. apply leading_spec; [assumption|assumption|]. apply fuel_enough. assumption.
Qed.
Definition digits (p : nat) (x : Qc) : nat := if qltb (qabs x) 1 then lead x - 1 + p else p.
Lemma round_frac_eq p x : x <> 0 -> round_frac p x = around (digits p x) x.
Proof. intro N. unfold round_frac, digits, lead. rewrite (proj2 (qeqb_neq x 0) N). destruct (qltb (qabs x) 1); reflexivity. Qed.
Lemma round_frac_0 p : round_frac p 0 = 0.
Proof. reflexivity. Qed.
Lemma digits_ge p x : (p <= digits p x)%nat.
Proof. unfold digits. destruct (qltb (qabs x) 1); lia. Qed.
Lemma round_frac_near p x : qabs (round_frac p x - x) * ten p <= qc 1 2.
Proof.
  destruct (Qc_eq_dec x 0) as [->|N].
  - rewrite round_frac_0. replace (qabs (0 - 0)) with 0 by reflexivity. replace (0 * ten p) with 0 by ring. discriminate.
  - rewrite round_frac_eq by assumption. eapply Qcle_trans; [|apply (around_near (digits p x) x)].
    assert (T := ten_le _ _ (digits_ge p x)). assert (A := qabs_nonneg (around (digits p x) x - x)). generalize dependent (ten (digits p x)). generalize dependent (qabs (around (digits p x) x - x)).
    intros a A t T. rewrite !(Qcmult_comm a). apply Qcmult_le_compat_r; assumption.
Qed.
Lemma grid_finer d e x z : (d <= e)%nat -> x * ten d = qz z -> exists z', x * ten e = qz z'.
Proof.
  intros L H. exists (z * 10 ^ Z.of_nat (e - d))%Z. rewrite qz_mult, <- H. fold (ten (e - d)). replace e with (d + (e - d))%nat at 1 by lia. rewrite ten_plus. ring.
Qed.
Lemma round_frac_exact p x z : x * ten p = qz z -> round_frac p x = x.
Proof.
  intro H. destruct (Qc_eq_dec x 0) as [->|N]; [reflexivity|]. rewrite round_frac_eq by assumption. destruct (grid_finer _ _ _ _ (digits_ge p x) H) as [z' Hz]. apply (around_grid _ _ _ Hz).
Qed.
Lemma precision_ge bins : (3 <= infer_precision bins)%nat.
Proof.
  unfold infer_precision. destruct (find _ _) as [p|] eqn:E; [|lia]. apply find_some in E. destruct E as [E _]. apply in_seq in E. lia.
Qed.
Lemma precision_le bins : (infer_precision bins <= 19)%nat.
Proof.
  unfold infer_precision. destruct (find _ _) as [p|] eqn:E; [|lia]. apply find_some in E. destruct E as [E _]. apply in_seq in E. lia.
Qed.

(** ** rounding is monotone and idempotent *)
Lemma abs_opp x : qabs (- x) = qabs x.
Proof. unfold qabs. qcase; qlra. Qed.
Lemma den_opp x : Qden (this (- x)) = Qden (this x).
Proof. rewrite <- abs_den, abs_opp. apply abs_den. Qed.
Lemma digits_opp p x : digits p (- x) = digits p x.
Proof. unfold digits, lead. rewrite abs_opp, den_opp. reflexivity. Qed.
Lemma round_frac_opp p x : round_frac p (- x) = - round_frac p x.
Proof.
  destruct (Qc_eq_dec x 0) as [->|N]; [reflexivity|]. rewrite !round_frac_eq, digits_opp by (try assumption; intro; apply N; qlra). apply around_opp.
Qed.
Lemma around_0 d : around d 0 = 0.
Proof. apply (around_grid d 0 0%Z). replace (0 * ten d) with 0 by ring. reflexivity. Qed.
Lemma abs_pos x : 0 <= x -> qabs x = x.
Proof. intro H. unfold qabs. qcase; qlra. Qed.
Lemma power_grid j d : (j <= d)%nat -> exists z, 1 / ten j * ten d = qz z.
Proof.
  intro H. exists (10 ^ Z.of_nat (d - j))%Z. fold (ten (d - j)). replace d with (j + (d - j))%nat at 1 by lia. rewrite ten_plus. field. assert (T := ten_pos j). intro E. rewrite E in T. discriminate T.
Qed.
Lemma below_power x j : x * ten j < 1 -> x < 1 / ten j.
Proof. intro H. assert (T := ten_pos j). apply Qcnot_le_lt. intro C. apply (Qcdiv_le _ _ T) in C. qlra. Qed.
Lemma above_power x j : 1 <= x * ten j -> 1 / ten j <= x.
Proof. intro H. assert (T := ten_pos j). apply (Qcdiv_le _ _ T). exact H. Qed.
Lemma scale_le x y j k : 0 <= x -> x <= y -> (j <= k)%nat -> x * ten j <= y * ten k.
Proof.
  intros P L J. assert (T := ten_pos j). assert (U := ten_le _ _ J). generalize dependent (ten j). generalize (ten k). intros b a T U.
  apply Qcle_trans with (y * a); [apply Qcmult_le_compat_r; qlra|]. rewrite !(Qcmult_comm y). apply Qcmult_le_compat_r; qlra.
Qed.
Lemma between p x y : (1 <= p)%nat -> 0 < x -> x <= y -> digits p x <> digits p y ->
  exists g z z', x <= g /\ g <= y /\ g * ten (digits p x) = qz z /\ g * ten (digits p y) = qz z'.
Proof.
  intros Hp P L D. unfold digits in *. rewrite !abs_pos in * by qlra.
  destruct (qltb_spec y 1) as [Y|Y].
  - destruct (qltb_spec x 1) as [X|X]; [|exfalso; qlra].
    assert (NX : x <> 0) by (intros ->; qlra). assert (NY : y <> 0) by (intros ->; qlra).
    destruct (lead_spec x NX) as (A1 & A2 & A3); [rewrite abs_pos; qlra|]. destruct (lead_spec y NY) as (B1 & B2 & B3); [rewrite abs_pos; qlra|].
    rewrite abs_pos in * by qlra. remember (lead x) as a. remember (lead y) as b.
    assert (b < a)%nat.
    { destruct (Nat.lt_ge_cases b a) as [Q|Q]; [exact Q|exfalso]. assert (a <> b) by (intro; subst; apply D; congruence).
      assert (x * ten a <= y * ten (b - 1)) by (apply scale_le; [qlra|qlra|lia]). qlra. }
    exists (1 / ten b). destruct (power_grid b (a - 1 + p)) as [z Hz]; [lia|]. destruct (power_grid b (b - 1 + p)) as [z' Hz']; [lia|]. exists z, z'.
    split; [|split; [apply above_power; assumption|split; assumption]].
    assert (x < 1 / ten b); [|qlra]. apply below_power. assert (x * ten b <= x * ten (a - 1)) by (apply scale_le; [qlra|qlra|lia]). qlra.
  - destruct (qltb_spec x 1) as [X|X]; [|contradiction]. exists 1. destruct (power_grid 0 (lead x - 1 + p)) as [z Hz]; [lia|]. destruct (power_grid 0 p) as [z' Hz']; [lia|].
    rewrite ten_0 in *. change (1 / 1) with 1 in *. exists z, z'. split; [qlra|split; [assumption|split; assumption]].
Qed.
Lemma round_mono_pos p x y : (1 <= p)%nat -> 0 < x -> x <= y -> round_frac p x <= round_frac p y.
Proof.
  intros Hp P L. rewrite !round_frac_eq by (intros ->; qlra). destruct (Nat.eq_dec (digits p x) (digits p y)) as [E|D].
  - rewrite E. apply around_mono. exact L.
  - destruct (between p x y Hp P L D) as (g & z & z' & G1 & G2 & G3 & G4). apply Qcle_trans with g.
    + rewrite <- (around_grid _ _ _ G3). apply around_mono. exact G1.
    + rewrite <- (around_grid _ _ _ G4). apply around_mono. exact G2.
Qed.
Lemma round_nonneg p x : 0 <= x -> 0 <= round_frac p x.
Proof.
  intro H. destruct (Qc_eq_dec x 0) as [->|N]; [discriminate|]. rewrite round_frac_eq by assumption. rewrite <- (around_0 (digits p x)) at 1. apply around_mono. exact H.
Qed.
Lemma round_mono p x y : (1 <= p)%nat -> x <= y -> round_frac p x <= round_frac p y.
Proof.
  intros Hp L. destruct (Qc_dec x 0) as [[X|X]|X].
  - destruct (Qc_dec y 0) as [[Y|Y]|Y].
    + assert (Q : round_frac p (- y) <= round_frac p (- x)) by (apply round_mono_pos; [exact Hp|qlra|qlra]). rewrite !round_frac_opp in Q. qlra.
    + assert (Q : 0 <= round_frac p (- x)) by (apply round_nonneg; qlra). assert (0 <= round_frac p y) by (apply round_nonneg; qlra). rewrite round_frac_opp in Q. qlra.
    + subst y. assert (Q : 0 <= round_frac p (- x)) by (apply round_nonneg; qlra). rewrite round_frac_opp in Q. rewrite round_frac_0. qlra.
  - apply round_mono_pos; assumption.
  - subst x. rewrite round_frac_0. apply round_nonneg. exact L.
Qed.
Lemma lead_unique x m : 0 < x -> (1 <= m)%nat -> 1 <= x * ten m -> x * ten (m - 1) < 1 -> lead x = m.
Proof.
  intros P M A B. assert (X : x < 1).
  { assert (x * ten 0 <= x * ten (m - 1)) by (apply scale_le; [qlra|qlra|lia]). rewrite ten_0 in *. qlra. }
  destruct (lead_spec x) as (C1 & C2 & C3); [intros ->; qlra|rewrite abs_pos; qlra|]. rewrite abs_pos in * by qlra.
  destruct (Nat.lt_trichotomy (lead x) m) as [L|[L|L]]; [|exact L|]; exfalso.
  - assert (x * ten (lead x) <= x * ten (m - 1)) by (apply scale_le; [qlra|qlra|lia]). qlra.
  - assert (x * ten m <= x * ten (lead x - 1)) by (apply scale_le; [qlra|qlra|lia]). qlra.
Qed.
Lemma power_pos j : 0 < 1 / ten j.
Proof.
  assert (T := ten_pos j). assert (E : 1 / ten j * ten j = 1) by (apply Qcdiv_mult; intro E; rewrite E in T; discriminate T).
  apply Qcnot_le_lt. intro C. generalize dependent (1 / ten j). generalize dependent (ten j). intros t T h E C.
  assert (Q : h * t <= 0 * t) by (apply Qcmult_le_compat_r; qlra). rewrite E in Q. replace (0 * t) with 0 in Q by ring. apply Q. reflexivity.
Qed.
Lemma power_fixed p j : (1 <= p)%nat -> round_frac p (1 / ten j) = 1 / ten j.
Proof.
  intro Hp. assert (P := power_pos j). assert (T := ten_pos j). assert (E : 1 / ten j * ten j = 1) by (apply Qcdiv_mult; intro E; rewrite E in T; discriminate T).
  rewrite round_frac_eq by (intro Z; rewrite Z in P; discriminate P). assert (G : (j <= digits p (1 / ten j))%nat).
  { destruct j as [|j]; [lia|]. assert (L : lead (1 / ten (S j)) = S j).
    { apply lead_unique; [exact P|lia|rewrite E; discriminate|]. replace (S j - 1)%nat with j by lia. assert (E' : 1 / ten (S j) * (qz 10 * ten j) = 1) by (rewrite <- ten_S; exact E). generalize dependent (1 / ten (S j)). intros g P E E'. assert (Hh : g * ten j * qz 10 = 1) by (rewrite <- E'; ring).
      generalize dependent (g * ten j). intros h Hh. apply Qcnot_le_lt. intro C. assert (H : 1 * qz 10 <= h * qz 10) by (apply Qcmult_le_compat_r; [exact C|discriminate]). rewrite Hh in H. vm_compute in H. apply H. reflexivity. }
    unfold digits. rewrite L. destruct (qltb_spec (qabs (1 / ten (S j))) 1) as [Q|Q]; [lia|]. exfalso. rewrite abs_pos in Q by qlra.
    assert (1 * ten (S j) <= 1 / ten (S j) * ten (S j)) by (apply Qcmult_le_compat_r; qlra). rewrite E in H. rewrite ten_S in H. assert (U := ten_pos j). assert (V : 1 <= ten j) by (rewrite <- ten_0; apply ten_le; lia).
    assert (W : qz 2 * ten j <= qz 10 * ten j) by (apply Qcmult_le_compat_r; [discriminate|qlra]). replace (qz 2) with (1 + 1) in W by reflexivity. replace ((1 + 1) * ten j) with (ten j + ten j) in W by ring. qlra. }
  destruct (power_grid j _ G) as [z Hz]. apply (around_grid _ _ _ Hz).
Qed.
Lemma round_idem_pos p x : (1 <= p)%nat -> 0 < x -> round_frac p (round_frac p x) = round_frac p x.
Proof.
  intros Hp P. assert (N : x <> 0) by (intros ->; discriminate P). rewrite (round_frac_eq p x N). remember (around (digits p x) x) as r.
  assert (G : r * ten (digits p x) = qz (np_round (x * ten (digits p x)))) by (subst r; apply around_on_grid).
  assert (M : forall g z, g * ten (digits p x) = qz z -> (x <= g -> r <= g) /\ (g <= x -> g <= r)).
  { intros g z Hg. rewrite <- (around_grid _ _ _ Hg). subst r. rewrite (around_grid _ _ _ Hg) at 1 3. split; intro; apply around_mono; assumption. }
  clear Heqr. unfold digits in *. rewrite abs_pos in * by qlra. destruct (qltb_spec x 1) as [X|X].
  - destruct (lead_spec x N) as (A1 & A2 & A3); [rewrite abs_pos; qlra|]. rewrite abs_pos in * by qlra. remember (lead x) as a.
    destruct (power_grid a (a - 1 + p)) as [z Hz]; [lia|]. destruct (power_grid (a - 1) (a - 1 + p)) as [z' Hz']; [lia|].
    assert (R1 : 1 / ten a <= r) by (apply (proj2 (M _ _ Hz)); apply above_power; exact A2).
    assert (R2 : r <= 1 / ten (a - 1)) by (apply (proj1 (M _ _ Hz')); assert (Q := below_power _ _ A3); qlra).
    destruct (Qc_eq_dec r (1 / ten (a - 1))) as [->|R3]; [apply power_fixed; exact Hp|].
    assert (R4 : r < 1 / ten (a - 1)) by (destruct (Qc_dec r (1 / ten (a - 1))) as [[Q|Q]|Q]; [exact Q|qlra|contradiction]).
    assert (RP : 0 < r) by (assert (Q := power_pos a); qlra).
    assert (LR : lead r = a).
    { apply lead_unique; [exact RP|exact A1| |].
      - assert (T := ten_pos a). apply (Qcdiv_le 1 r T). exact R1.
      - assert (T := ten_pos (a - 1)). apply Qcnot_le_lt. intro C. apply (Qcdiv_le 1 r T) in C. qlra. }
    assert (r < 1). { assert (Q : r * ten 0 <= r * ten (a - 1)) by (apply scale_le; [qlra|qlra|lia]). rewrite ten_0 in Q. assert (T := ten_pos (a - 1)). assert (r * ten (a - 1) < 1) by (apply Qcnot_le_lt; intro C; apply (Qcdiv_le 1 r T) in C; qlra). qlra. }
    rewrite round_frac_eq by (intros ->; discriminate RP). unfold digits. rewrite abs_pos by qlra. rewrite LR. destruct (qltb_spec r 1) as [Q|Q]; [|exfalso; qlra]. apply (around_grid _ _ _ G).
  - destruct (power_grid 0 p) as [z Hz]; [lia|]. rewrite ten_0 in Hz. change (1 / 1) with 1 in Hz. assert (R1 : 1 <= r) by (apply (proj2 (M _ _ Hz)); exact X).
    apply (round_frac_exact _ _ _ G).
Qed.
Lemma round_idem p x : (1 <= p)%nat -> round_frac p (round_frac p x) = round_frac p x.
Proof.
  intro Hp. destruct (Qc_dec x 0) as [[X|X]|X]; [|apply round_idem_pos; assumption|subst; reflexivity].
  replace x with (- - x) by ring. rewrite round_frac_opp, round_frac_opp, round_idem_pos by (try assumption; qlra). reflexivity.
Qed.

(** ** the points *)
Lemma min_ex x : x <> [] -> exists m, qminimum x = Ok m /\ least x m.
Proof.
  intro N. destruct (qminimum x) as [m|e] eqn:E; [exists m; split; [reflexivity|]; apply qminimum_spec; exact E|]. apply qminimum_err in E. destruct E as [E _]. contradiction.
Qed.
Lemma max_ex x : x <> [] -> exists m, qmaximum x = Ok m /\ greatest x m.
Proof.
  intro N. destruct (qmaximum x) as [m|e] eqn:E; [exists m; split; [reflexivity|]; apply qmaximum_spec; exact E|]. apply qmaximum_err in E. destruct E as [E _]. contradiction.
Qed.
Lemma least_fun x a b : least x a -> least x b -> a = b.
Proof. intros [A1 A2] [B1 B2]. apply Qcle_antisym; auto. Qed.
Lemma greatest_fun x a b : greatest x a -> greatest x b -> a = b.
Proof. intros [A1 A2] [B1 B2]. apply Qcle_antisym; auto. Qed.
Lemma strict_unique l : StronglySorted Qclt l -> qunique l = l.
Proof.
  intro H. assert (C : forall a b : Qc, a < b -> qltb a b = true) by (intros; apply qltb_lt; assumption).
  apply (@sorted_ext Qc qltb qltb_trans); [intro a; destruct (qltb_spec a a) as [Q|Q]; [exfalso; qlra|reflexivity]| | |].
  - apply (unique_by_sorted qltb qltb_trans qltb_total).
  - eapply StronglySorted_impl; [|exact H]. exact C.
  - intro a. apply qunique_In.
Qed.
Lemma sides_two x y l : exists s, sides (x :: y :: l) = Ok s /\ fst s ++ [snd s] = x :: y :: l.
Proof.
  eexists. split; [reflexivity|]. cbn [fst snd]. symmetry. apply (app_removelast_last x). discriminate.
Qed.
Lemma breaks_strict drop incl bins : StronglySorted Qclt bins ->
  breaks drop incl bins = Ok (let p := infer_precision bins in let r := map (round_frac p) bins in if incl then match r with [] => [] | x :: r' => (x - 1 / ten p) :: r' end else r).
Proof.
  intro H. unfold breaks. rewrite (strict_unique _ H), Nat.ltb_irrefl. reflexivity.
Qed.
Lemma width_of x k bins mn : qminimum x = Ok mn -> cut_bins x k = Ok bins -> StronglySorted Qclt bins -> (2 <= List.length bins)%nat ->
  width_points x (k + 1) = Ok (mn :: map (round_frac (infer_precision bins)) (tl bins)).
Proof.
  intros M C S L. unfold width_points. replace (k + 1 - 1)%Z with k by lia. rewrite C. cbn [bind]. rewrite (breaks_strict false false bins S). cbv zeta.
  destruct bins as [|b0 [|b1 bins]]; [cbn in L; lia|cbn in L; lia|]. cbn [map tl]. destruct (sides_two (round_frac (infer_precision (b0 :: b1 :: bins)) b0) (round_frac (infer_precision (b0 :: b1 :: bins)) b1) (map (round_frac (infer_precision (b0 :: b1 :: bins))) bins)) as (s & E & J).
  rewrite E. cbn [bind]. unfold equal_width. rewrite M. cbn [bind]. destruct s as [lefts r]. cbn [fst snd] in J. rewrite J. reflexivity.
Qed.
Lemma freq_strict x k mn : qminimum x = Ok mn -> (1 <= k)%nat -> StronglySorted Qclt (qcut_bins x k) ->
  freq_points x (Z.of_nat (S k)) = Ok (mn :: map (round_frac (infer_precision (qcut_bins x k))) (tl (qcut_bins x k))).
Proof.
  intros M K S. unfold freq_points. replace (Z.to_nat (Z.of_nat (Datatypes.S k) - 1)) with k by lia. rewrite (breaks_strict false true _ S). cbv zeta.
  assert (L : (2 <= List.length (qcut_bins x k))%nat) by (unfold qcut_bins, linspace; rewrite !map_length, seq_length; lia). revert S L. generalize (qcut_bins x k) as bins. intros bins S L.
  destruct bins as [|b0 [|b1 bins]]; [cbn in L; lia|cbn in L; lia|]. cbn [map tl].
  match goal with |- context [sides (?a :: ?b :: ?l)] => destruct (sides_two a b l) as (s & E & J) end.
  rewrite E. cbn [bind]. unfold equal_freq. rewrite M. cbn [bind]. destruct s as [lefts r]. cbn [fst snd] in J. rewrite J. reflexivity.
Qed.
Lemma freq_repeated x k mn : qminimum x = Ok mn -> (2 <= k)%nat -> (List.length (qunique (qcut_bins x k)) < S k)%nat ->
  freq_points x (Z.of_nat (S k)) =
    match qunique (qcut_bins x k) with
    | b0 :: b1 :: u => Ok (mn :: mn :: map (round_frac (infer_precision (b0 :: b1 :: u))) (b1 :: u))
    | _ => Err IndexError
    end.
Proof.
  intros M K S. unfold freq_points. replace (Z.to_nat (Z.of_nat (Datatypes.S k) - 1)) with k by lia.
  assert (L : List.length (qcut_bins x k) = Datatypes.S k) by (unfold qcut_bins, linspace; rewrite !map_length, seq_length; lia).
  unfold breaks. rewrite L. rewrite (proj2 (Nat.ltb_lt _ _) S). replace (Nat.eqb (Datatypes.S k) 2) with false by (symmetry; apply Nat.eqb_neq; lia). cbn [andb negb bind].
  generalize (qunique (qcut_bins x k)) as u. intros [|b0 [|b1 u]]; [reflexivity|reflexivity|]. cbv zeta. cbn [map].
  match goal with |- context [sides (?a :: ?b :: ?l)] => destruct (sides_two a b l) as (s & E & J) end.
  rewrite E. cbn [bind]. unfold equal_freq. rewrite M. cbn [bind]. destruct s as [lefts r]. cbn [fst snd] in J. rewrite J. reflexivity.
Qed.
