(** * Proofs about equal-width and equal-frequency divisions, part two (C126) *)
From Verif Require Import Prelude M_Fuzzy M_Discretize M_Rule M_FDT M_Neighborhood M_Lore M_Distr M_Cut S_Cut P_FuzzySet P_FuzzyVar P_Utils P_Utils4 S_Lore P_Lore P_Distr P_Cut.
From Coq Require Import Reals.
Local Notation eqb := Prelude.eqb.
Open Scope Qc_scope.

Lemma sorted_seq (f : nat -> Qc) a n : (forall i, (a <= i < a + n)%nat -> f i < f (S i)) -> StronglySorted Qclt (map f (seq a (S n))).
Proof.
  revert a. induction n as [|n IH]; intros a H; [repeat constructor|]. change (seq a (S (S n))) with (a :: seq (S a) (S n)). cbn [map].
  assert (S1 : StronglySorted Qclt (map f (seq (S a) (S n)))) by (apply IH; intros i Hi; apply H; lia). constructor; [exact S1|].
  change (seq (S a) (S n)) with (S a :: seq (S (S a)) n) in *. cbn [map] in *. assert (F : f a < f (S a)) by (apply H; lia). inversion S1 as [|? ? _ G]; subst. constructor; [exact F|].
  eapply Forall_impl; [|exact G]. cbv beta. intros q Hq. eapply Qclt_trans; eassumption.
Qed.
Lemma sorted_tl l : StronglySorted Qclt l -> StronglySorted Qclt (tl l).
Proof. intro H. destruct H; [constructor|assumption]. Qed.
Lemma part_0 lo hi k : part lo hi k 0 = lo.
Proof. unfold part. change (qn 0) with 0. ring. Qed.
Lemma qn_nz k : (1 <= k)%nat -> qn k <> 0.
Proof. intros K E. assert (Q : 0 < qn k) by (change 0 with (qn 0); unfold qn; apply qz_lt; lia). rewrite E in Q. discriminate Q. Qed.
Lemma part_last lo hi k : (1 <= k)%nat -> part lo hi k k = hi.
Proof. intro K. unfold part. field. apply qn_nz. exact K. Qed.
Lemma part_step lo hi k i : part lo hi k (S i) - part lo hi k i = (hi - lo) / qn k.
Proof. unfold part. rewrite qn_S. ring. Qed.
Lemma step_pos lo hi k : (1 <= k)%nat -> lo < hi -> 0 < (hi - lo) / qn k.
Proof.
  intros K L. assert (Q : 0 < qn k) by (change 0 with (qn 0); unfold qn; apply qz_lt; lia). apply Qcnot_le_lt. intro C. assert (E : (hi - lo) / qn k * qn k = hi - lo) by (apply Qcdiv_mult; apply qn_nz; exact K).
  generalize dependent ((hi - lo) / qn k). intros s C E. assert (H : s * qn k <= 0 * qn k) by (apply Qcmult_le_compat_r; qlra). replace (0 * qn k) with 0 in H by ring. rewrite E in H. qlra.
Qed.
Definition width_bins (mn mx : Qc) (k : nat) : list Qc := (mn - (mx - mn) * qc 1 1000) :: map (part mn mx k) (seq 1 k).
Lemma cut_bins_eq x k mn mx : qminimum x = Ok mn -> qmaximum x = Ok mx -> mn < mx -> (1 <= k)%nat -> cut_bins x (Z.of_nat k) = Ok (width_bins mn mx k).
Proof.
  intros M X L K. unfold cut_bins. rewrite (proj2 (Z.ltb_ge (Z.of_nat k) 1)) by lia. rewrite M, X. cbn [bind]. rewrite (proj2 (qeqb_neq mn mx)) by (intros ->; qlra).
  replace (Z.to_nat (Z.of_nat k + 1)) with (S k) by lia. unfold linspace. replace (S k - 1)%nat with k by lia. change (seq 0 (S k)) with (0%nat :: seq 1 k). cbn [map].
  unfold width_bins. f_equal. f_equal. change (qn 0) with 0. ring.
Qed.
Lemma width_bins_sorted mn mx k : mn < mx -> (1 <= k)%nat -> StronglySorted Qclt (width_bins mn mx k).
Proof.
  intros L K. assert (S0 := step_pos mn mx k K L). assert (H : StronglySorted Qclt (map (part mn mx k) (seq 0 (S k)))).
  { apply sorted_seq. intros i _. assert (Q := part_step mn mx k i). qlra. }
  change (seq 0 (S k)) with (0%nat :: seq 1 k) in H. cbn [map] in H. rewrite part_0 in H. inversion H as [|? ? H1 H2]; subst. constructor; [exact H1|]. eapply Forall_impl; [|exact H2].
  cbv beta. intros q Q. assert (0 < (mx - mn) * qc 1 1000) by (apply Qcmult_pos; [qlra|reflexivity]). qlra.
Qed.
Lemma width_eq x k mn mx : qminimum x = Ok mn -> qmaximum x = Ok mx -> mn < mx -> (1 <= k)%nat ->
  width_points x (Z.of_nat (S k)) = Ok (mn :: map (fun i => round_frac (infer_precision (width_bins mn mx k)) (part mn mx k i)) (seq 1 k)).
Proof.
  intros M X L K. replace (Z.of_nat (S k)) with (Z.of_nat k + 1)%Z by lia. rewrite (width_of x (Z.of_nat k) (width_bins mn mx k) mn M (cut_bins_eq _ _ _ _ M X L K) (width_bins_sorted _ _ _ L K)).
  - unfold width_bins at 2. cbn [tl]. rewrite map_map. reflexivity.
  - unfold width_bins. cbn [List.length]. rewrite map_length, seq_length. lia.
Qed.
Lemma close_round p x : (3 <= p)%nat -> close (round_frac p x) x.
Proof.
  intro P. unfold close. assert (A := round_frac_near p x). assert (B := qabs_nonneg (round_frac p x - x)). assert (C := ten_le _ _ P). change (ten 3) with (qz 1000) in C.
  generalize dependent (qabs (round_frac p x - x)). generalize dependent (ten p). intros t C a A B. assert (D : a * qz 1000 <= a * t) by (rewrite !(Qcmult_comm a); apply Qcmult_le_compat_r; assumption).
  assert (E : a * qz 1000 <= qc 1 2) by qlra. replace a with (a * qz 1000 * qc 1 1000) by (replace (a * qz 1000 * qc 1 1000) with (a * (qz 1000 * qc 1 1000)) by ring; replace (qz 1000 * qc 1 1000) with 1 by (apply Qc_is_canon; reflexivity); ring).
  replace (qc 1 2000) with (qc 1 2 * qc 1 1000) by (apply Qc_is_canon; reflexivity). apply Qcmult_le_compat_r; [exact E|discriminate].
Qed.
Lemma exact_round p x : (3 <= p)%nat -> three_decimals x -> round_frac p x = x.
Proof.
  intros P [z H]. change (qz 1000) with (ten 3) in H. destruct (grid_finer 3 p x z P H) as [z' Hz]. apply (round_frac_exact _ _ _ Hz).
Qed.
Lemma close_bounds a b : close a b -> b - qc 1 2000 <= a /\ a <= b + qc 1 2000.
Proof. unfold close. generalize (qc 1 2000). intros t H. unfold qabs in H. destruct (qltb_spec (a - b) 0); split; qlra. Qed.
Lemma two_halves : qc 1 2000 + qc 1 2000 = qc 1 1000.
Proof. apply Qc_is_canon. reflexivity. Qed.
Lemma width_sorted x k mn mx l : qminimum x = Ok mn -> qmaximum x = Ok mx -> (1 <= k)%nat -> qc 1 1000 < (mx - mn) / qn k -> mn < mx ->
  width_points x (Z.of_nat (S k)) = Ok l -> StronglySorted Qclt l.
Proof.
  intros M X K W L E. rewrite (width_eq _ _ _ _ M X L K) in E. set (R := round_frac (infer_precision (width_bins mn mx k))) in E.
  assert (N : forall i, close (R (part mn mx k i)) (part mn mx k i)) by (intro i; apply close_round; apply precision_ge).
  assert (T := two_halves). assert (H0 : 0 < qc 1 2000) by reflexivity.
  assert (H : StronglySorted Qclt (map (fun i => match i with O => mn | S _ => R (part mn mx k i) end) (seq 0 (S k)))).
  { apply sorted_seq. intros i _. assert (Q := part_step mn mx k i). destruct (close_bounds _ _ (N (S i))) as [A B]. destruct i as [|i].
    - rewrite part_0 in Q. generalize dependent (qc 1 2000). generalize dependent (qc 1 1000). intros. qlra.
    - destruct (close_bounds _ _ (N (S i))) as [A' B']. generalize dependent (qc 1 2000). generalize dependent (qc 1 1000). intros. qlra. }
  change (seq 0 (S k)) with (0%nat :: seq 1 k) in H. cbn [map] in H.
  replace l with (mn :: map (fun i => R (part mn mx k i)) (seq 1 k)) by congruence. replace (map (fun i => R (part mn mx k i)) (seq 1 k)) with (map (fun i => match i with O => mn | S _ => R (part mn mx k i) end) (seq 1 k)); [exact H|].
  apply map_ext_in. intros i Hi. apply in_seq in Hi. destruct i; [lia|reflexivity].
Qed.

(** ** quantiles *)
Lemma at_floor_0 x : at_floor 0 x = 0%nat.
Proof. unfold at_floor. replace (0 * qn (List.length x - 1)) with 0 by ring. reflexivity. Qed.
Lemma percentile_0 x mn : least x mn -> percentile 0 x = mn.
Proof.
  intro H. assert (NE : x <> []) by (intros ->; destruct H as [[] _]). unfold percentile. replace (0 * qn (List.length x - 1)) with 0 by ring. change (Z.to_nat (Qround.Qfloor (this 0))) with 0%nat. change (qn 0) with 0.
  set (s := sort_asc (fun v => v) x). assert (P : Permutation x s) by apply sort_by_perm. assert (SS : StronglySorted (fun a b : Qc => a <= b) s) by apply (sort_asc_sorted (fun u => u)).
  assert (G : nth 0 s 0 = mn); [|rewrite G; ring]. destruct H as [H1 H2]. destruct s as [|a s]; [apply Permutation_sym, Permutation_nil in P; contradiction|]. cbn [nth]. apply Qcle_antisym.
  - apply (Permutation_in _ P) in H1. destruct H1 as [->|H1]; [apply Qcle_refl|]. inversion SS as [|? ? _ F]; subst. rewrite Forall_forall in F. apply F. exact H1.
  - apply H2. apply (Permutation_in _ (Permutation_sym P)). left. reflexivity.
Qed.
Lemma floor_qn n : Z.to_nat (Qround.Qfloor (this (qn n))) = n.
Proof. unfold qn, qz. rewrite this_Q2Qc. rewrite Qround.Qfloor_Z. apply Nat2Z.id. Qed.
Lemma percentile_1 x mx : greatest x mx -> percentile 1 x = mx.
Proof.
  intro H. assert (NE : x <> []) by (intros ->; destruct H as [[] _]). unfold percentile. replace (1 * qn (List.length x - 1)) with (qn (List.length x - 1)) by ring. rewrite floor_qn.
  set (s := sort_asc (fun v => v) x). assert (P : Permutation x s) by apply sort_by_perm. assert (SS : StronglySorted (fun a b : Qc => a <= b) s) by apply (sort_asc_sorted (fun u => u)).
  assert (LS := Permutation_length P). assert (X0 : (0 < List.length x)%nat) by (destruct x; [congruence|cbn; lia]).
  assert (G : nth (List.length x - 1) s 0 = mx); [|rewrite G; ring]. destruct H as [H1 H2]. apply Qcle_antisym.
  - apply H2. apply (Permutation_in _ (Permutation_sym P)). apply nth_In. lia.
  - apply (Permutation_in _ P) in H1. apply (In_nth _ _ 0) in H1. destruct H1 as (i & Hi & <-). apply sorted_nth; [exact SS|lia].
Qed.
Definition quantile (x : list Qc) (k i : nat) : Qc := percentile (qn i / qn k) x.
Lemma qcut_bins_eq x k : (1 <= k)%nat -> qcut_bins x k = map (quantile x k) (seq 0 (S k)).
Proof.
  intro K. unfold qcut_bins, linspace. rewrite map_map. apply map_ext. intro i. unfold quantile. f_equal. replace (S k - 1)%nat with k by lia. field. apply qn_nz. exact K.
Qed.
Lemma quantile_0 x k mn : least x mn -> quantile x k 0 = mn.
Proof. intro H. unfold quantile. change (qn 0) with 0. replace (0 / qn k) with 0 by (unfold Qcdiv; ring). apply percentile_0. exact H. Qed.
Lemma quantile_k x k mx : (1 <= k)%nat -> greatest x mx -> quantile x k k = mx.
Proof. intros K H. unfold quantile. replace (qn k / qn k) with 1 by (field; apply qn_nz; exact K). apply percentile_1. exact H. Qed.
Lemma frac_01 i k : (1 <= k)%nat -> (i <= k)%nat -> 0 <= qn i / qn k /\ qn i / qn k <= 1.
Proof.
  intros K I. assert (Q : 0 < qn k) by (change 0 with (qn 0); unfold qn; apply qz_lt; lia). split.
  - apply (Qcle_div _ _ Q). replace (0 * qn k) with 0 by ring. apply qn_nonneg.
  - apply (Qcdiv_le _ _ Q). replace (1 * qn k) with (qn k) by ring. unfold qn. apply qz_le. lia.
Qed.
Lemma frac_mono i j k : (1 <= k)%nat -> (i <= j)%nat -> qn i / qn k <= qn j / qn k.
Proof.
  intros K I. assert (Q : 0 < qn k) by (change 0 with (qn 0); unfold qn; apply qz_lt; lia). assert (E : qn j / qn k * qn k = qn j) by (apply Qcdiv_mult; apply qn_nz; exact K). apply (Qcdiv_le _ _ Q). rewrite E. unfold qn. apply qz_le. lia.
Qed.
Lemma quantile_mono x k i j : (1 <= k)%nat -> x <> [] -> (i <= j)%nat -> (j <= k)%nat -> quantile x k i <= quantile x k j.
Proof.
  intros K NE I J. unfold quantile. apply percentile_mono; [apply frac_01; lia|apply frac_mono; lia|apply frac_01; lia|exact NE].
Qed.
Lemma filter_length_le {A} (f : A -> bool) l : (List.length (filter f l) <= List.length l)%nat.
Proof. induction l as [|a l IH]; cbn; [lia|]. destruct (f a); cbn; lia. Qed.
Lemma filter_none {A} (f : A -> bool) l : (forall a, In a l -> f a = false) -> filter f l = [].
Proof. intro H. induction l as [|a l IH]; [reflexivity|]. cbn. rewrite (H a) by (left; reflexivity). apply IH. intros b Hb. apply H. right. exact Hb. Qed.
Lemma nth_error_ext {A} (a b : list A) : (forall i, nth_error a i = nth_error b i) -> a = b.
Proof.
  revert b. induction a as [|x a IH]; intros [|y b] H; [reflexivity|discriminate (H 0%nat)|discriminate (H 0%nat)|]. f_equal; [assert (Q := H 0%nat); cbn in Q; congruence|]. apply IH. intro i. exact (H (S i)).
Qed.
Lemma quantile_of_percentile q x : 0 <= q -> q <= 1 -> x <> [] -> quantile_of x q (percentile q x).
Proof.
  intros Q0 Q1 NE. destruct (at_floor_spec Q0 Q1 NE) as (L & A & B & C). set (s := sort_asc (fun v => v) x). assert (P : Permutation x s) by apply sort_by_perm. assert (LS := Permutation_length P).
  assert (X0 : (0 < List.length x)%nat) by (destruct x; [congruence|cbn; lia]).
  exists s, (at_floor q x), (nth (at_floor q x) s 0), (nth (S (at_floor q x)) s (nth (at_floor q x) s 0)). cbv zeta. split; [exact P|]. split; [apply (sort_asc_sorted (fun u => u))|].
  split; [apply nth_error_nth'; lia|]. split.
  - destruct (Nat.lt_ge_cases (S (at_floor q x)) (List.length s)) as [H|H]; [left; apply nth_error_nth'; exact H|right; split; [lia|apply nth_overflow; lia]].
  - split; [exact A|]. split; [rewrite qn_S; qlra|]. reflexivity.
Qed.
Lemma sorted_unique (s t : list Qc) : StronglySorted Qcle s -> StronglySorted Qcle t -> Permutation s t -> s = t.
Proof.
  revert t. induction s as [|a s IH]; intros t S T P; [apply Permutation_nil in P; congruence|]. destruct t as [|b t]; [apply Permutation_sym, Permutation_nil in P; discriminate|].
  inversion S as [|? ? S1 S2]; inversion T as [|? ? T1 T2]; subst. rewrite Forall_forall in S2, T2.
  assert (a = b).
  { assert (I : In a (b :: t)) by (apply (Permutation_in _ P); left; reflexivity). assert (J : In b (a :: s)) by (apply (Permutation_in _ (Permutation_sym P)); left; reflexivity).
    destruct I as [I|I]; [congruence|]. destruct J as [J|J]; [congruence|]. apply Qcle_antisym; auto. }
  subst b. f_equal. apply IH; [assumption|assumption|]. apply (Permutation_cons_inv P).
Qed.
Lemma floor_unique p i j : qn i <= p -> p < qn (S i) -> qn j <= p -> p < qn (S j) -> i = j.
Proof.
  intros A B C D. assert (E : qn i < qn (S j)) by qlra. assert (F : qn j < qn (S i)) by qlra. unfold qn in E, F. rewrite qz_lt in E, F. lia.
Qed.
Lemma quantile_fun x q v w : quantile_of x q v -> quantile_of x q w -> v = w.
Proof.
  intros (s & j & a & b & P & S & A & B & J & K & ->) (t & j' & a' & b' & P' & S' & A' & B' & J' & K' & ->).
  assert (s = t) by (apply sorted_unique; [assumption|assumption|]; eapply Permutation_trans; [apply Permutation_sym; exact P|exact P']). subst t.
  assert (j = j') by (apply (floor_unique (q * qn (List.length x - 1))); assumption). subst j'. assert (a = a') by congruence. subst a'.
  assert (b = b'); [|subst; reflexivity]. destruct B as [B|[B1 B2]], B' as [B'|[B1' B2']]; try congruence.
  - assert (Datatypes.S j < List.length s)%nat by (apply nth_error_Some; congruence). lia.
  - assert (Datatypes.S j < List.length s)%nat by (apply nth_error_Some; congruence). lia.
Qed.
Lemma quantiles_bins x k qs : (1 <= k)%nat -> x <> [] -> quantiles_of x k qs -> qs = qcut_bins x k.
Proof.
  intros K NE [L H]. rewrite qcut_bins_eq by exact K. apply nth_error_ext. intro i. destruct (nth_error qs i) as [v|] eqn:E.
  - assert (I : (i < S k)%nat) by (rewrite <- L; apply nth_error_Some; congruence). rewrite nth_error_map. rewrite (nth_error_nth' _ 0%nat) by (rewrite seq_length; exact I). cbn [option_map]. rewrite seq_nth by exact I. cbn [Nat.add]. f_equal.
    apply (quantile_fun x (qn i / qn k)); [apply H; exact E|]. apply quantile_of_percentile; [apply frac_01; lia|apply frac_01; lia|exact NE].
  - symmetry. apply nth_error_None. rewrite map_length, seq_length. apply nth_error_None in E. lia.
Qed.
Lemma quantiles_exist x k : (1 <= k)%nat -> x <> [] -> quantiles_of x k (qcut_bins x k).
Proof.
  intros K NE. rewrite qcut_bins_eq by exact K. split; [rewrite map_length, seq_length; reflexivity|]. intros i v E. rewrite nth_error_map in E. destruct (nth_error (seq 0 (S k)) i) as [i'|] eqn:F; [|discriminate].
  assert (I : (i < S k)%nat) by (rewrite <- (seq_length (S k) 0); apply nth_error_Some; congruence). rewrite (nth_error_nth' _ 0%nat) in F by (rewrite seq_length; exact I). rewrite seq_nth in F by exact I. cbn in F. replace i' with i in E by congruence. cbn in E. replace v with (quantile x k i) by congruence.
  apply quantile_of_percentile; [apply frac_01; lia|apply frac_01; lia|exact NE].
Qed.

(** ** rounding keeps numbers apart *)
Lemma tiny : qc 1 10000000000000000000 * ten 19 = 1.
Proof. apply Qc_is_canon. reflexivity. Qed.
Lemma half_plus : qc 1 2 + qc 1 2 = 1.
Proof. apply Qc_is_canon. reflexivity. Qed.
Lemma round19 a b : a + qc 1 10000000000000000000 < b -> round_frac 19 a < round_frac 19 b.
Proof.
  intro H. assert (A := round_frac_near 19 a). assert (B := round_frac_near 19 b). assert (T := ten_pos 19). assert (E := tiny). assert (HP := half_plus). generalize dependent (qc 1 10000000000000000000). generalize dependent (qc 1 2). generalize dependent (ten 19). generalize (round_frac 19 a) (round_frac 19 b). intros ra rb t T h A B HP e H E.
  rewrite (abs_scale _ _ _ T) in A; rewrite (abs_scale _ _ _ T) in B. assert (0 < (b - a - e) * t) by (apply Qcmult_pos; qlra). assert (HH : a * t + 1 < b * t) by (rewrite <- E; qlra). clear H0.
  assert (ra * t < rb * t). { unfold qabs in A, B. destruct (qltb_spec (ra * t - a * t) 0), (qltb_spec (rb * t - b * t) 0); qlra. }
  apply Qcnot_le_lt. intro C. assert (rb * t <= ra * t) by (apply Qcmult_le_compat_r; qlra). qlra.
Qed.
Lemma map_strict (f : Qc -> Qc) (R : Qc -> Qc -> Prop) l : (forall a b, R a b -> f a < f b) -> StronglySorted R l -> StronglySorted Qclt (map f l).
Proof.
  intros H S. induction S as [|a l S IH F]; [constructor|]. cbn [map]. constructor; [exact IH|]. apply Forall_map. eapply Forall_impl; [|exact F]. intros b. apply H.
Qed.
Lemma nodup_strict l : StronglySorted Qcle l -> NoDup l -> StronglySorted Qclt l.
Proof.
  intros S N. induction S as [|a l S IH F]; [constructor|]. inversion N as [|? ? N1 N2]; subst. constructor; [apply IH; exact N2|]. rewrite Forall_forall in *. intros b Hb. specialize (F b Hb).
  destruct (Qc_dec a b) as [[Q|Q]|Q]; [exact Q|exfalso; qlra|]. subst b. contradiction.
Qed.
Lemma unique_full l : List.length (qunique l) = List.length l -> NoDup l.
Proof.
  intro H. apply (NoDup_incl_NoDup (l := qunique l)); [|lia|intros a Ha; apply qunique_In; exact Ha].
  apply qunique_NoDup.
Qed.
Lemma apart_strong l : apart l -> StronglySorted (fun a b => a + qc 1 10000000000000000000 < b) l.
Proof.
  intro H. apply Sorted_StronglySorted; [|exact H]. intros a b c A B. assert (0 < qc 1 10000000000000000000) by reflexivity. generalize dependent (qc 1 10000000000000000000). intros. qlra.
Qed.
Lemma apart_strict l : apart l -> StronglySorted Qclt l.
Proof.
  intro H. apply apart_strong in H. eapply StronglySorted_impl; [|exact H]. intros a b A. assert (0 < qc 1 10000000000000000000) by reflexivity. generalize dependent (qc 1 10000000000000000000). intros. qlra.
Qed.
Lemma map_mono (f : Qc -> Qc) l : (forall a b, a <= b -> f a <= f b) -> StronglySorted Qclt l -> StronglySorted Qcle (map f l).
Proof.
  intros H S. induction S as [|a l S IH F]; [constructor|]. cbn [map]. constructor; [exact IH|]. apply Forall_map. eapply Forall_impl; [|exact F]. intros b Hb. apply H. qlra.
Qed.
Lemma precision_apart l : apart l -> StronglySorted Qclt (map (round_frac (infer_precision l)) l).
Proof.
  intro H. assert (S19 := map_strict (round_frac 19) _ l round19 (apart_strong _ H)). assert (P := precision_ge l).
  assert (F : List.length (qunique (map (round_frac (infer_precision l)) l)) = List.length l).
  { unfold infer_precision. destruct (find _ _) as [p|] eqn:E.
    - apply find_some in E. destruct E as [_ E]. apply Nat.eqb_eq in E. exact E.
    - exfalso. assert (Q := find_none _ _ E 19%nat). cbv beta in Q. rewrite (strict_unique _ S19), map_length, Nat.eqb_refl in Q. assert (true = false) by (apply Q; apply in_seq; lia). discriminate. }
  apply nodup_strict.
  - apply map_mono; [|apply apart_strict; exact H]. intros a b. apply round_mono. lia.
  - apply unique_full. rewrite map_length. exact F.
Qed.
Lemma first_below p (a b : Qc) : (3 <= p)%nat -> round_frac p a < round_frac p b -> a < round_frac p b.
Proof.
  intros P H. apply Qcnot_le_lt. intro C. assert (Q : round_frac p (round_frac p b) <= round_frac p a) by (apply round_mono; [lia|exact C]). rewrite round_idem in Q by lia. qlra.
Qed.
Lemma points_sorted b0 l : apart (b0 :: l) -> StronglySorted Qclt (b0 :: map (round_frac (infer_precision (b0 :: l))) l).
Proof.
  intro H. assert (S := precision_apart _ H). cbn [map] in S. inversion S as [|? ? S1 S2]; subst. constructor; [exact S1|]. assert (P := precision_ge (b0 :: l)). rewrite Forall_forall in *. intros r Hr. specialize (S2 r Hr).
  apply in_map_iff in Hr. destruct Hr as (b & <- & _). apply first_below; assumption.
Qed.
Lemma bins_head x k mn : (1 <= k)%nat -> least x mn -> exists l, qcut_bins x k = mn :: l /\ List.length l = k.
Proof.
  intros K H. rewrite qcut_bins_eq by exact K. change (seq 0 (S k)) with (0%nat :: seq 1 k). cbn [map]. rewrite (quantile_0 _ _ _ H). eexists. split; [reflexivity|]. rewrite map_length, seq_length. reflexivity.
Qed.
Lemma bins_mono x k : (1 <= k)%nat -> x <> [] -> StronglySorted Qcle (qcut_bins x k).
Proof.
  intros K NE. rewrite qcut_bins_eq by exact K. assert (G : forall n a, (a + n <= S k)%nat -> StronglySorted Qcle (map (quantile x k) (seq a n))).
  { induction n as [|n IH]; intros a L; [constructor|]. cbn [seq map]. constructor; [apply IH; lia|]. apply Forall_map. rewrite Forall_forall. intros j Hj. apply in_seq in Hj. apply quantile_mono; [exact K|exact NE|lia|lia]. }
  apply G. lia.
Qed.
(** ** the share of values below and above a quantile *)
Lemma count_split (s : list Qc) v i : StronglySorted Qcle s -> (i < List.length s)%nat -> (v <= nth i s 0 -> (List.length (filter (fun u => qltb u v) s) <= i)%nat) /\ (nth i s 0 <= v -> (List.length (filter (fun u => qltb v u) s) <= List.length s - 1 - i)%nat).
Proof.
  intro S. revert i. induction S as [|a s S IH F]; intros i L; [cbn in L; lia|]. rewrite Forall_forall in F. split.
  - intro H. destruct i as [|i].
    + cbn [nth] in H. assert (E : filter (fun u => qltb u v) (a :: s) = []); [|rewrite E; cbn; lia]. apply filter_none. intros u Hu. apply qltb_ge. destruct Hu as [<-|Hu]; [exact H|]. specialize (F u Hu). qlra.
    + cbn [nth] in H. cbn [List.length] in L. assert (Q := proj1 (IH i ltac:(lia)) H). cbn [filter]. destruct (qltb a v); cbn [List.length]; lia.
  - intro H. cbn [filter List.length] in *. destruct i as [|i].
    + cbn [nth] in H. rewrite (proj2 (qltb_ge v a)) by exact H. assert (Q := filter_length_le (fun u => qltb v u) s). lia.
    + cbn [nth] in H. assert (A : a <= v). { assert (a <= nth i s 0) by (apply F; apply nth_In; lia). qlra. } rewrite (proj2 (qltb_ge v a)) by exact A. assert (Q := proj2 (IH i ltac:(lia)) H). lia.
Qed.
