(** * C126: equal-width and equal-frequency divisions *)
From Verif Require Import Prelude M_Fuzzy M_Discretize M_Rule M_FDT M_Neighborhood M_Lore M_Distr M_Cut S_Cut S_Distr P_FuzzySet P_FuzzyVar P_Utils P_Utils4 S_Lore P_Lore P_Distr P_Cut P_Cut2 P_Counterfactual Properties_Fuzzy.
From Coq Require Import Reals.
Local Notation eqb := Prelude.eqb.
Open Scope string_scope. Open Scope list_scope. Open Scope Qc_scope.

Lemma least_min x mn : least x mn -> qminimum x = Ok mn.
Proof. intro H. destruct (min_ex x) as (m & E & L); [intros ->; destruct H as [[] _]|]. rewrite E. f_equal. apply (least_fun x); assumption. Qed.
Lemma greatest_max x mx : greatest x mx -> qmaximum x = Ok mx.
Proof. intro H. destruct (max_ex x) as (m & E & L); [intros ->; destruct H as [[] _]|]. rewrite E. f_equal. apply (greatest_fun x); assumption. Qed.
Lemma nth_map_seq {A} (f : nat -> A) a n i p : nth_error (map f (seq a n)) i = Some p -> (i < n)%nat /\ p = f (a + i)%nat.
Proof.
  intro E. assert (I : (i < n)%nat) by (rewrite <- (seq_length n a), <- (map_length f (seq a n)); apply nth_error_Some; congruence). split; [exact I|].
  rewrite nth_error_map in E. rewrite (nth_error_nth' _ 0%nat) in E by (rewrite seq_length; exact I). rewrite seq_nth in E by exact I. cbn in E. congruence.
Qed.

(** the points of the equal-width division: as many as sets, the least value first, the others the equal parts up to rounding *)
Theorem C126_equal_width_points : forall x k mn mx, least x mn -> greatest x mx -> mn < mx -> (1 <= k)%nat ->
  exists l, width_points x (Z.of_nat (S k)) = Ok l /\ List.length l = S k /\ nth_error l 0 = Some mn /\
    forall i p, nth_error l i = Some p -> close p (part mn mx k i) /\ (three_decimals (part mn mx k i) -> p = part mn mx k i).
Proof.
  intros x k mn mx H1 H2 L K. rewrite (width_eq _ _ _ _ (least_min _ _ H1) (greatest_max _ _ H2) L K). eexists. split; [reflexivity|]. split; [cbn [List.length]; rewrite map_length, seq_length; reflexivity|]. split; [reflexivity|].
  intros i p E. destruct i as [|i].
  - cbn in E. replace p with mn by congruence. rewrite part_0. split; [|reflexivity]. unfold close. replace (mn - mn) with 0 by ring. discriminate.
  - cbn [nth_error] in E. apply nth_map_seq in E. destruct E as [I ->]. cbn [Nat.add]. split; [apply close_round; apply precision_ge|]. apply exact_round. apply precision_ge.
Qed.
Print Assumptions C126_equal_width_points.

Lemma map_snd_zip {A B} (a : list A) (b : list B) : List.length a = List.length b -> map snd (combine a b) = b.
Proof. revert b. induction a as [|x a IH]; intros [|y b] H; cbn in *; try discriminate; [reflexivity|]. f_equal. apply IH. lia. Qed.
Lemma covers (labels : list string) l method v mn : List.length labels = List.length l -> (2 <= List.length l)%nat -> StronglySorted Qclt l -> In mn l -> mn <= v ->
  exists sets degrees, continuous_sets method (combine labels l) = Ok sets /\ Forall2 (fun s m => membership (FC s) (CNum v) = Ok m) sets degrees /\
    ((exists q, In q l /\ v <= q) -> qsum degrees = 1) /\ ((forall q, In q l -> q < v) -> Forall (fun m => m = 0) degrees).
Proof.
  intros N L S I V. destruct (C02_strong_partition method (combine labels l) v) as (sets & degrees & E & F & A & _ & B).
  - rewrite combine_length. lia.
  - rewrite map_snd_zip by exact N. exact S.
  - rewrite map_snd_zip in * by exact N. exists sets, degrees. splits; [exact E|exact F| |].
    + intro H. apply A; [exists mn; split; assumption|exact H].
    + intro H. apply B. right. exact H.
Qed.

(** if the equal parts are wider than a thousandth, the points ascend, and the fuzzy sets over them share out every value of the
    column, except that values above the last point - by at most half a thousandth - are in none *)
Theorem C126_equal_width_covers : forall x k mn mx labels method, least x mn -> greatest x mx -> (1 <= k)%nat -> qc 1 1000 < (mx - mn) / qn k ->
  List.length labels = S k ->
  exists l, width_points x (Z.of_nat (S k)) = Ok l /\ StronglySorted Qclt l /\
    forall v, In v x -> exists sets degrees, continuous_sets method (combine labels l) = Ok sets /\
      Forall2 (fun s m => membership (FC s) (CNum v) = Ok m) sets degrees /\
      (v <= mx - qc 1 2000 \/ three_decimals mx -> qsum degrees = 1) /\
      ((exists p, In p l /\ v <= p) -> qsum degrees = 1) /\ ((forall p, In p l -> p < v) -> Forall (fun m => m = 0) degrees).
Proof.
  intros x k mn mx labels method H1 H2 K W N. assert (L : mn < mx).
  { assert (Q : 0 < qn k) by (change 0 with (qn 0); unfold qn; apply qz_lt; lia). assert (E : (mx - mn) / qn k * qn k = mx - mn) by (apply Qcdiv_mult; apply qn_nz; exact K).
    assert (W0 : 0 < (mx - mn) / qn k) by (assert (0 < qc 1 1000) by reflexivity; eapply Qclt_trans; eassumption). generalize dependent ((mx - mn) / qn k). intros s W E W0. assert (0 < s * qn k) by (apply Qcmult_pos; assumption). rewrite E in *. qlra. }
  destruct (C126_equal_width_points x k mn mx H1 H2 L K) as (l & E & LL & F & P). exists l. assert (S := width_sorted _ _ _ _ _ (least_min _ _ H1) (greatest_max _ _ H2) K W L E). split; [exact E|]. split; [exact S|].
  intros v V. destruct (covers labels l method v mn) as (sets & degrees & A & B & C & D); [congruence|lia|exact S|apply (nth_error_In _ _ F)|apply H1; exact V|].
  exists sets, degrees. splits; [exact A|exact B| |exact C|exact D]. intro G. apply C. destruct (nth_error l k) as [p|] eqn:Ek; [|apply nth_error_None in Ek; lia]. exists p. split; [apply (nth_error_In _ _ Ek)|].
  destruct (P k p Ek) as [Q1 Q2]. rewrite part_last in * by exact K. destruct G as [G|G].
  - apply close_bounds in Q1. destruct Q1 as [Q1 _]. generalize dependent (qc 1 2000). intros. qlra.
  - rewrite (Q2 G). apply H2. exact V.
Qed.
Print Assumptions C126_equal_width_covers.

(** the largest value of a column may be in no set *)
Theorem C126_maximum_uncovered_refuted : exists x l sets,
  width_points x 3 = Ok l /\ continuous_sets "bound" (combine ["low"; "mid"; "high"] l) = Ok sets /\ greatest x (qc 12344 10000) /\
  mapM (fun s => membership (FC s) (CNum (qc 12344 10000))) sets = Ok [0; 0; 0].
Proof.
  exists [0; qc 12344 10000]. eexists. eexists. split; [qex|]. split; [qex|]. split; [|qex].
  split; [right; left; reflexivity|]. intros v [<-|[<-|[]]]; discriminate.
Qed.
Print Assumptions C126_maximum_uncovered_refuted.

(** a constant column is divided at unordered points, and no degree can be computed *)
Theorem C126_constant_column_refuted : exists x l sets,
  width_points x 4 = Ok l /\ l = [qz 5; qc 4998 1000; qc 5002 1000; qc 5005 1000] /\ (forall v, In v x -> v = qz 5) /\
  continuous_sets "bound" (combine ["a"; "b"; "c"; "d"] l) = Ok sets /\ exists s, In s sets /\ forall v, membership (FC s) (CNum v) = Err AssertionError.
Proof.
  exists [qz 5; qz 5]. eexists. eexists. split; [qex|]. split; [reflexivity|]. split; [intros v [<-|[<-|[]]]; reflexivity|]. split; [qex|]. eexists. split; [left; reflexivity|].
  intro v. apply C01_unordered_points_rejected. cbn [pa pb pc]. intros [A B]. apply B. reflexivity.
Qed.
Print Assumptions C126_constant_column_refuted.

(** the quantiles of a column exist, are unique, go from the least to the greatest value, and leave the right shares on both sides *)
Theorem C126_quantiles : forall x k, x <> [] -> (1 <= k)%nat ->
  (exists qs, quantiles_of x k qs) /\ (forall qs qs', quantiles_of x k qs -> quantiles_of x k qs' -> qs = qs') /\
  forall qs mn mx, quantiles_of x k qs -> least x mn -> greatest x mx ->
    nth_error qs 0 = Some mn /\ nth_error qs k = Some mx /\ StronglySorted Qcle qs.
Proof.
  intros x k NE K. split; [exists (qcut_bins x k); apply quantiles_exist; assumption|]. split.
  - intros qs qs' H H'. rewrite (quantiles_bins _ _ _ K NE H), (quantiles_bins _ _ _ K NE H'). reflexivity.
  - intros qs mn mx H H1 H2. rewrite (quantiles_bins _ _ _ K NE H). split; [|split; [|apply bins_mono; assumption]].
    + destruct (bins_head x k mn K H1) as (l & -> & _). reflexivity.
    + rewrite qcut_bins_eq by exact K. rewrite nth_error_map. rewrite (nth_error_nth' _ 0%nat) by (rewrite seq_length; lia). rewrite seq_nth by lia. cbn [option_map Nat.add]. f_equal. apply quantile_k; assumption.
Qed.
Print Assumptions C126_quantiles.

Theorem C126_quantile_shares : forall x q v, quantile_of x q v ->
  qn (below v x) < q * qn (List.length x - 1) + 1 /\ qn (above v x) < (1 - q) * qn (List.length x - 1) + 1.
Proof.
  intros x q v (s & j & a & b & P & S & A & B & J & K & E). cbv zeta in *.
  assert (FP : forall f : Qc -> bool, List.length (filter f x) = List.length (filter f s)). { intro f. clear - P. induction P as [|c l l' P IH|c d l|l l' l'' P IH P' IH']; cbn; [reflexivity|destruct (f c); cbn; congruence|destruct (f c), (f d); reflexivity|congruence]. }
  unfold below, above. rewrite !FP. rewrite (Permutation_length P) in *. assert (JL : (j < List.length s)%nat) by (apply nth_error_Some; congruence).
  assert (NJ : nth j s 0 = a) by (apply nth_error_nth; exact A). remember (q * qn (List.length s - 1)) as pos eqn:Q. rewrite qn_S in K.
  assert (AB : a <= b). { destruct B as [B|[_ ->]]; [|apply Qcle_refl]. assert (BL : (Datatypes.S j < List.length s)%nat) by (apply nth_error_Some; congruence). rewrite <- NJ, <- (nth_error_nth s (Datatypes.S j) 0 B). apply sorted_nth; [exact S|lia]. }
  assert (AV : a <= v) by (subst v; assert (0 <= (pos - qn j) * (b - a)) by (apply Qcmult_nonneg; qlra); qlra).
  assert (VB : v <= b) by (subst v; assert (0 <= (1 - (pos - qn j)) * (b - a)) by (apply Qcmult_nonneg; qlra); qlra).
  split.
  - destruct (Qc_eq_dec v a) as [Va|Va].
    + destruct (count_split s v j S JL) as [C _]. assert (D : (List.length (filter (fun u => qltb u v) s) <= j)%nat) by (apply C; rewrite NJ, Va; apply Qcle_refl).
      assert (D' : qn (List.length (filter (fun u => qltb u v) s)) <= qn j) by (unfold qn; apply qz_le; lia). qlra.
    + assert (PJ : qn j < pos). { destruct (Qc_dec (qn j) pos) as [[T|T]|T]; [exact T|exfalso; qlra|]. exfalso. apply Va. rewrite E, <- T. ring. }
      destruct B as [B|[_ B]]; [|exfalso; apply Va; rewrite E, B; ring]. assert (BL : (Datatypes.S j < List.length s)%nat) by (apply nth_error_Some; congruence).
      destruct (count_split s v (Datatypes.S j) S BL) as [C _]. assert (D : (List.length (filter (fun u => qltb u v) s) <= Datatypes.S j)%nat) by (apply C; rewrite (nth_error_nth s (Datatypes.S j) 0 B); exact VB).
      assert (D' : qn (List.length (filter (fun u => qltb u v) s)) <= qn (Datatypes.S j)) by (unfold qn; apply qz_le; lia). rewrite qn_S in D'. qlra.
  - destruct (count_split s v j S JL) as [_ C]. assert (D : (List.length (filter (fun u => qltb v u) s) <= List.length s - 1 - j)%nat) by (apply C; rewrite NJ; exact AV).
    assert (D' : qn (List.length (filter (fun u => qltb v u) s)) + qn j <= qn (List.length s - 1)) by (rewrite <- qn_plus; unfold qn; apply qz_le; lia).
    replace ((1 - q) * qn (List.length s - 1)) with (qn (List.length s - 1) - pos) by (subst pos; ring). qlra.
Qed.
Print Assumptions C126_quantile_shares.

(** distinct quantiles: the least value, then the other quantiles up to rounding; ascending, and sharing out every value of the column
    except those above the last point *)
Theorem C126_equal_freq_points : forall x k qs mn mx, least x mn -> greatest x mx -> (1 <= k)%nat -> quantiles_of x k qs -> NoDup qs ->
  exists l, freq_points x (Z.of_nat (S k)) = Ok l /\ List.length l = S k /\ nth_error l 0 = Some mn /\
    (forall i p q, nth_error l i = Some p -> nth_error qs i = Some q -> close p q /\ (three_decimals q -> p = q)) /\
    (apart qs -> StronglySorted Qclt l /\ forall labels method v, List.length labels = S k -> In v x ->
       exists sets degrees, continuous_sets method (combine labels l) = Ok sets /\
         Forall2 (fun s m => membership (FC s) (CNum v) = Ok m) sets degrees /\
         (v <= mx - qc 1 2000 \/ three_decimals mx -> qsum degrees = 1) /\
         ((exists p, In p l /\ v <= p) -> qsum degrees = 1) /\ ((forall p, In p l -> p < v) -> Forall (fun m => m = 0) degrees)).
Proof.
  intros x k qs mn mx H1 H2 K HQ ND. assert (NE : x <> []) by (intros ->; destruct H1 as [[] _]). destruct (proj2 (proj2 (C126_quantiles x k NE K)) qs mn mx HQ H1 H2) as (Q0 & Qk & _). assert (E := quantiles_bins _ _ _ K NE HQ). subst qs.
  assert (S := nodup_strict _ (bins_mono x k K NE) ND). destruct (bins_head x k mn K H1) as (bs & B & LB). rewrite (freq_strict _ _ _ (least_min _ _ H1) K S). rewrite B in *. cbn [tl].
  assert (C : forall i p q, nth_error (mn :: map (round_frac (infer_precision (mn :: bs))) bs) i = Some p -> nth_error (mn :: bs) i = Some q -> close p q /\ (three_decimals q -> p = q)).
  { intros [|i] p q Hp Hq; cbn [nth_error] in *.
    - replace q with p by congruence. split; [|reflexivity]. unfold close. replace (p - p) with 0 by ring. discriminate.
    - rewrite nth_error_map, Hq in Hp. cbn in Hp. replace p with (round_frac (infer_precision (mn :: bs)) q) by congruence. split; [apply close_round; apply precision_ge|apply exact_round; apply precision_ge]. }
  eexists. split; [reflexivity|]. split; [cbn; rewrite map_length; congruence|]. split; [reflexivity|]. split; [exact C|].
  intro AP. assert (SL := points_sorted _ _ AP). split; [exact SL|]. remember (mn :: map (round_frac (infer_precision (mn :: bs))) bs) as l eqn:EL. assert (LL : List.length l = Datatypes.S k) by (subst l; cbn; rewrite map_length; congruence).
  intros labels method v N V. destruct (covers labels l method v mn) as (sets & degrees & A1 & A2 & A3 & A4); [congruence|lia|exact SL|subst l; left; reflexivity|apply H1; exact V|].
  exists sets, degrees. splits; [exact A1|exact A2| |exact A3|exact A4]. intro G. apply A3. destruct (nth_error l k) as [p|] eqn:Ek; [|apply nth_error_None in Ek; lia]. exists p. split; [apply (nth_error_In _ _ Ek)|].
  destruct (C k p mx Ek Qk) as [C1 C2]. destruct G as [G|G].
  - apply close_bounds in C1. destruct C1 as [C1 _]. generalize dependent (qc 1 2000). intros. qlra.
  - rewrite (C2 G). apply H2. exact V.
Qed.
Print Assumptions C126_equal_freq_points.

(** repeated quantiles: the least value twice, then one point for every other distinct quantile; IndexError for a constant column *)
Theorem C126_equal_freq_repeated : forall x k qs mn mx, least x mn -> greatest x mx -> (2 <= k)%nat -> quantiles_of x k qs -> ~ NoDup qs ->
  (mn = mx -> freq_points x (Z.of_nat (S k)) = Err IndexError) /\
  (mn < mx -> exists rest ds, freq_points x (Z.of_nat (S k)) = Ok (mn :: mn :: rest) /\
     StronglySorted Qclt ds /\ (forall q, In q ds <-> In q qs /\ q <> mn) /\ Forall2 (fun p q => close p q /\ (three_decimals q -> p = q)) rest ds /\
     (List.length rest < k)%nat).
Proof.
  intros x k qs mn mx H1 H2 K HQ ND. assert (NE : x <> []) by (intros ->; destruct H1 as [[] _]). assert (K1 : (1 <= k)%nat) by lia. destruct (proj2 (proj2 (C126_quantiles x k NE K1)) qs mn mx HQ H1 H2) as (Q0 & Qk & QS). assert (E := quantiles_bins _ _ _ K1 NE HQ).
  assert (LQ : List.length qs = S k) by apply HQ. assert (LU : (List.length (qunique qs) < S k)%nat).
  { destruct (Nat.lt_ge_cases (List.length (qunique qs)) (S k)) as [G|G]; [exact G|]. exfalso. apply ND. apply (NoDup_incl_NoDup (l := qunique qs)); [apply qunique_NoDup|lia|]. intros a Ha. apply qunique_In. exact Ha. }
  rewrite (freq_repeated x k mn (least_min _ _ H1) K) by (rewrite <- E; exact LU). rewrite <- E.
  assert (US : StronglySorted Qclt (qunique qs)) by apply qunique_sorted. assert (UI : forall q, In q (qunique qs) <-> In q qs) by (intro; apply qunique_In).
  assert (B : forall q, In q qs -> mn <= q /\ q <= mx).
  { intros q I. apply In_nth_error in I. destruct I as [i I]. assert (L : (i < List.length qs)%nat) by (apply nth_error_Some; congruence).
    rewrite <- (nth_error_nth _ _ 0 I), <- (nth_error_nth _ _ 0 Q0), <- (nth_error_nth _ _ 0 Qk). split; apply sorted_nth; try assumption; lia. }
  assert (M0 : In mn (qunique qs)) by (apply UI; apply (nth_error_In _ _ Q0)). assert (MX : In mx (qunique qs)) by (apply UI; apply (nth_error_In _ _ Qk)).
  destruct (qunique qs) as [|b0 us] eqn:EU; [destruct M0|]. inversion US as [|? ? US1 US2]; subst. rewrite Forall_forall in US2.
  assert (b0 = mn). { apply Qcle_antisym; [|apply B; apply UI; left; reflexivity]. destruct M0 as [->|M0]; [apply Qcle_refl|]. specialize (US2 mn M0). qlra. } subst b0.
  split.
  - intro EQ. destruct us as [|b1 us]; [reflexivity|]. exfalso. assert (mn < b1) by (apply US2; left; reflexivity). assert (b1 <= mx) by (apply B; apply UI; right; left; reflexivity). rewrite EQ in *. qlra.
  - intro LT. destruct us as [|b1 us]; [destruct MX as [MX|[]]; rewrite MX in LT; exfalso; qlra|]. eexists. exists (b1 :: us). split; [reflexivity|]. split; [exact US1|]. split; [|split].
    + intro q. split.
      * intro I. split; [apply UI; right; exact I|]. intros ->. specialize (US2 mn I). qlra.
      * intros [I NQ]. apply UI in I. destruct I as [I|I]; [congruence|exact I].
    + generalize (precision_ge (mn :: b1 :: us)). generalize (infer_precision (mn :: b1 :: us)). intros p P. clear - P. induction (b1 :: us) as [|q l IH]; constructor; [|exact IH]. split; [apply close_round; exact P|apply exact_round; exact P].
    + rewrite map_length. cbn [List.length] in *. lia.
Qed.
Print Assumptions C126_equal_freq_repeated.

(** then the least value belongs to two sets at degree one *)
Theorem C126_minimum_counted_twice_refuted : exists x l sets degrees,
  freq_points x 4 = Ok l /\ l = [0; 0; qz 1; qz 2] /\ continuous_sets "bound" (combine ["a"; "b"; "c"; "d"] l) = Ok sets /\
  mapM (fun s => membership (FC s) (CNum 0)) sets = Ok degrees /\ degrees = [1; 1; 0; 0].
Proof.
  exists [0; 0; 0; qz 1; qz 1; qz 2; qz 2]. exists [0; 0; qz 1; qz 2]. eexists. exists [1; 1; 0; 0]. split; [qex|]. split; [reflexivity|]. split; [reflexivity|]. split; [qex|]. reflexivity.
Qed.
Print Assumptions C126_minimum_counted_twice_refuted.

(** get_fuzzy_points: one entry per name, in order; the distinct values of a point variable, the chosen division of the others *)
Theorem C126_get_fuzzy_points : forall method names X y sets pv max_depth th d, NoDup names ->
  fuzzy_points method names X y sets pv max_depth th = Ok d ->
  In method ["equal_freq"; "equal_width"; "entropy"] /\ map fst d = names /\
    forall i name, nth_error names i = Some name -> exists col p, Forall2 (fun row v => nth_error row i = Some v) X col /\ dget name d = Some p /\
    (In name pv -> StronglySorted Qclt p /\ forall v, In v p <-> In v col) /\
    (~ In name pv -> method = "equal_width" -> width_points col sets = Ok p) /\
    (~ In name pv -> method = "equal_freq" -> freq_points col sets = Ok p) /\
    (~ In name pv -> method = "entropy" -> exists l, y = Some l /\ entropy_points max_depth th (combine col l) = Ok p).
Proof.
  intros method names X y sets pv max_depth th d ND H. unfold fuzzy_points in H.
  match type of H with (if ?b then _ else _) = _ => destruct b; [discriminate|] end. match type of H with (if ?b then _ else _) = _ => destruct b; [discriminate|] end.
  match type of H with (if ?b then _ else _) = _ => destruct b eqn:M; [discriminate|] end. apply Bool.negb_false_iff in M. split; [exact (proj1 (@memb_In _ _ method _) M)|].
  match type of H with bind ?r _ = _ => destruct r as [pts|] eqn:E; [|discriminate] end. cbn [bind] in H. apply mapM_nth_error in E. destruct E as [LE E].
  assert (LN : List.length pts = List.length names) by (rewrite LE; unfold enumerate, zip; rewrite combine_length, seq_length; lia).
  assert (F : map fst pts = names).
  { apply nth_error_ext. intro i. rewrite nth_error_map. destruct (nth_error names i) as [name|] eqn:N.
    - destruct (E i (i, name) (enumerate_nth _ _ N)) as (yy & G & Y). rewrite Y. cbn [option_map]. f_equal.
      match type of G with bind ?r _ = _ => destruct r as [col|]; [|discriminate] end. cbn [bind] in G. match type of G with bind ?r _ = _ => destruct r as [p|]; [|discriminate] end. cbn [bind] in G. assert (Q : yy = (name, p)) by congruence. rewrite Q. reflexivity.
    - replace (nth_error pts i) with (@None (string * list Qc)); [reflexivity|]. symmetry. apply nth_error_None. apply nth_error_None in N. lia. }
  assert (ND' : NoDup (map fst pts)) by (rewrite F; exact ND). assert (D : d = pts) by (rewrite (dict_of_nodup pts ND') in H; congruence). subst d. split; [exact F|].
  intros i name N. destruct (E i (i, name) (enumerate_nth _ _ N)) as (yy & G & Y). match type of G with bind ?r _ = _ => destruct r as [col|] eqn:C; [|discriminate] end. cbn [bind] in G. match type of G with bind ?r _ = _ => destruct r as [p|] eqn:P; [|discriminate] end. cbn [bind] in G. assert (Q : yy = (name, p)) by congruence. subst yy.
  exists col, p. split; [|split; [apply dget_nodup; [exact ND'|apply (nth_error_In _ _ Y)]|]].
  - rewrite mapM_ok in C. eapply Forall2_impl; [|exact C]. cbv beta. intros row v R. destruct (nth_error row i); cbn in R; congruence.
  - destruct (memb name pv) eqn:MP.
    + assert (IP := proj1 (@memb_In _ _ name pv) MP). splits; [|intros; contradiction|intros; contradiction|intros; contradiction]. intros _. replace p with (qunique col) by congruence. split; [apply qunique_sorted|]. intro v. apply qunique_In.
    + assert (IP : ~ In name pv) by (apply (proj1 (@memb_not_In _ _ name pv)); exact MP). splits; [intro; contradiction| | |]; intros _ ->; cbn in P.
      * exact P.
      * exact P.
      * destruct y as [l|]; [|discriminate]. exists l. split; [reflexivity|]. exact P.
Qed.
Print Assumptions C126_get_fuzzy_points.

Theorem C126_get_fuzzy_points_rejects : forall method names X y sets pv max_depth th,
  ~ In method ["equal_freq"; "equal_width"; "entropy"] \/ X = [] \/ (exists l, y = Some l /\ List.length l <> List.length X) ->
  fuzzy_points method names X y sets pv max_depth th = Err ValueError.
Proof.
  intros method names X y sets pv max_depth th H. unfold fuzzy_points. destruct (_ || _)%bool eqn:B1; [reflexivity|]. destruct (match y with Some l => negb (Nat.eqb (List.length l) (List.length X)) | None => false end) eqn:B2; [reflexivity|].
  destruct H as [H|[->|(l & -> & H)]].
  - rewrite (proj2 (@memb_not_In _ _ method _) H). reflexivity.
  - discriminate B1.
  - apply Bool.negb_false_iff, Nat.eqb_eq in B2. contradiction.
Qed.
Print Assumptions C126_get_fuzzy_points_rejects.

(** the repository's own example, and that it meets the conditions above *)
Definition cut_X : list (list Qc) := [[0; qz 7]; [qz 2; qz 9]; [qz 10; qz 10]].
Example C126_instance :
  fuzzy_points "equal_width" ["one"; "two"] cut_X None 3 [] 0 None = Ok [("one", [0; qz 5; qz 10]); ("two", [qz 7; qc 17 2; qz 10])] /\
    fuzzy_points "equal_freq" ["one"; "two"] cut_X None 3 ["two"] 0 None = Ok [("one", [0; qz 2; qz 10]); ("two", [qz 7; qz 9; qz 10])] /\
    least [0; qz 2; qz 10] 0 /\ greatest [0; qz 2; qz 10] (qz 10) /\ qc 1 1000 < (qz 10 - 0) / qn 2 /\
    quantiles_of [0; qz 2; qz 10] 2 [0; qz 2; qz 10] /\ apart [0; qz 2; qz 10] /\ NoDup [0; qz 2; qz 10] /\
    quantiles_of [0; 0; 0; qz 1] 2 [0; 0; qz 1] /\ ~ NoDup [0; 0; qz 1] /\ freq_points [0; 0; 0; qz 1] 3 = Ok [0; 0; qz 1].
Proof.
  split; [qex|]. split; [qex|]. split; [split; [left; reflexivity|intros v [<-|[<-|[<-|[]]]]; discriminate]|]. split; [split; [right; right; left; reflexivity|intros v [<-|[<-|[<-|[]]]]; discriminate]|].
  split; [reflexivity|]. split; [|split; [repeat constructor|split]].
  - replace [0; qz 2; qz 10] with (qcut_bins [0; qz 2; qz 10] 2) at 2 by qex. apply quantiles_exist; [lia|discriminate].
  - repeat constructor; cbn; intuition discriminate.
  - split; [|split; [|qex]].
    + replace [0; 0; qz 1] with (qcut_bins [0; 0; 0; qz 1] 2) by qex. apply quantiles_exist; [lia|discriminate].
    + intro H. inversion H as [|? ? H1 _]. apply H1. left. reflexivity.
Qed.
