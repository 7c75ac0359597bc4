(** * Properties C41-C47: metrics *)
From Verif Require Import Prelude M_Fuzzy M_Rule M_Metrics S_Metrics P_Rule P_Metrics.
Open Scope string_scope.
Open Scope list_scope.
Open Scope Qc_scope.

(** Examples: one feature with two sets, three rows *)
Definition mx_ds : fdata := [("x", [("low", [1; qc 1 2; 0]); ("high", [0; qc 1 2; 1])])].
Definition mx_low : rule string := mkR [("x", "low")] 1%Z 1.
Definition mx_high : rule string := mkR [("x", "high")] 1%Z 1.
Lemma mx_rows : rows_of mx_ds 3.
Proof.
  split; [repeat eexists|]. intros f sets v col [H|[]] Hc. injection H as <- <-. destruct Hc as [H|[H|[]]]; injection H as <- <-; reflexivity.
Qed.
Lemma mx_known r : In r [mx_low; mx_high] -> rule_known mx_ds r.
Proof. intros [<-|[<-|[]]] f v [H|[]]; injection H as <- <-; repeat eexists. Qed.

(** ** C41 *)
Theorem C41_coverage : forall ds n th rules, rows_of ds n -> (0 < n)%nat -> rules <> [] -> (forall r, In r rules -> rule_known ds r) ->
  exists c l, coverage set_lookup rules ds th = Ok (Some c) /\
    row_set n (fun j => forall r, In r rules -> covers ds th r j) l /\ c = qn (List.length l) / qn n /\ 0 <= c /\ c <= 1.
Proof.
  intros ds n th rules R P N K. unfold coverage. rewrite (@coverage_spec ds n th rules R N K). cbn [bind fst snd]. rewrite count_true_map.
  assert (RS : row_set n (fun j => forall r, In r rules -> covers ds th r j) (filter (fun j => forallb (fun r => coverb ds th r j) rules) (seq 0 n))).
  { apply row_set_filter. intros j Hj. apply forallb_all_covers with (n := n); assumption. }
  destruct (@np_ratio_01 (List.length (filter (fun j => forallb (fun r => coverb ds th r j) rules) (seq 0 n))) n) as (c & E & C & C1 & C2); [apply (row_set_bound RS)|assumption|].
  exists c. eexists. split; [rewrite E; reflexivity|]. split; [exact RS|]. auto.
Qed.
Print Assumptions C41_coverage.

(** more rules or a higher threshold never give a larger coverage *)
Theorem C41_coverage_monotone : forall ds n th th' rules rules' c c', rows_of ds n -> (0 < n)%nat -> rules <> [] ->
  incl rules rules' -> (forall r, In r rules' -> rule_known ds r) -> th <= th' ->
  coverage set_lookup rules ds th = Ok (Some c) -> coverage set_lookup rules' ds th' = Ok (Some c') -> c' <= c.
Proof.
  intros ds n th th' rules rules' c c' R P N I K T E E'.
  destruct (@C41_coverage ds n th rules R P N (fun r Hr => K r (I r Hr))) as (d & l & D & L & -> & _). rewrite E in D. injection D as ->.
  assert (N' : rules' <> []) by (intros ->; destruct rules as [|r rs]; [congruence|destruct (I r); left; reflexivity]).
  destruct (@C41_coverage ds n th' rules' R P N' K) as (d' & l' & D' & L' & -> & _). rewrite E' in D'. injection D' as ->.
  apply Qcdiv_le; [apply qn_pos; assumption|]. rewrite Qcdiv_mult by (intro Z; apply qn_pos in P; rewrite Z in P; qlra). apply qn_le.
  refine (row_set_length _ L' L). intros j Hj H r Hr. destruct (H r (I r Hr)) as [A B]. split; [qlra|]. intros f v Hf. destruct (B f v Hf) as (x & X1 & X2). exists x. split; [assumption|qlra].
Qed.
Print Assumptions C41_coverage_monotone.

(** it is not the documented share of rows covered by at least one rule: here every row is
    covered by one of the two rules *)
Theorem C41_not_the_union_refuted : 
  (forall j, (j < 3)%nat -> covers mx_ds 0 mx_low j \/ covers mx_ds 0 mx_high j) /\
  coverage set_lookup [mx_low; mx_high] mx_ds 0 = Ok (Some (qc 1 3)) /\
  coverage set_lookup [] mx_ds 0 = Err (A := option Qc) IndexError.
Proof.
  split; [|split; [qex|reflexivity]]. intros j Hj.
  assert (C : forall r, In r [mx_low; mx_high] -> coverb mx_ds 0 r j = true -> covers mx_ds 0 r j) by (intros r Hr; apply (@coverb_covers mx_ds 3 0 r j mx_rows (mx_known r Hr) Hj)).
  destruct j as [|[|[|j]]]; [left|left|right|lia]; apply C; cbn; auto; reflexivity.
Qed.
Print Assumptions C41_not_the_union_refuted.

(** ** C42 *)
Theorem C42_precision : forall ds n th r0 rules y, let rs := r0 :: rules in
  rows_of ds n -> (forall r, In r rs -> rule_known ds r) -> List.length y = n ->
  exists covered right,
    row_set n (fun j => forall r, In r rs -> covers ds th r j) covered /\
    row_set n (fun j => (forall r, In r rs -> covers ds th r j) /\ nth_error y j = Some (r_cons r0)) right /\
    ((covered = [] /\ precision set_lookup rs ds y th = Ok None) \/
     (covered <> [] /\ exists p, precision set_lookup rs ds y th = Ok (Some p) /\
        p = qn (List.length right) / qn (List.length covered) /\ 0 <= p /\ p <= 1)).
Proof.
  intros ds n th r0 rules y rs R K L.
  set (p := fun j => forallb (fun r => coverb ds th r j) rs). set (q := fun j => p j && Z.eqb (nth j y 0%Z) (r_cons r0)).
  assert (RS : row_set n (fun j => forall r, In r rs -> covers ds th r j) (filter p (seq 0 n))).
  { apply row_set_filter. intros j Hj. apply forallb_all_covers with (n := n); assumption. }
  assert (RQ : row_set n (fun j => (forall r, In r rs -> covers ds th r j) /\ nth_error y j = Some (r_cons r0)) (filter q (seq 0 n))).
  { apply row_set_filter. intros j Hj. unfold q. rewrite andb_true_iff, Z.eqb_eq. unfold p. rewrite (@forallb_all_covers ds n th rs j R K Hj).
    rewrite nth_eq_Some by lia. reflexivity. }
  exists (filter p (seq 0 n)), (filter q (seq 0 n)). split; [assumption|]. split; [assumption|].
  assert (E : precision set_lookup rs ds y th = Ok (np_ratio (List.length (filter q (seq 0 n))) (List.length (filter p (seq 0 n))))).
  { unfold precision. rewrite (@coverage_spec ds n th rs R); [|discriminate|assumption]. cbn [bind fst snd]. cbn [nth_error rs ret_opt bind].
    rewrite map_length, seq_length, L, Nat.eqb_refl. cbn [negb]. fold rs. fold p. rewrite <- (map_seq_nth 0%Z y), L, map_map, map2_map_seq, !count_true_map. reflexivity. }
  rewrite E. assert (LE : (List.length (filter q (seq 0 n)) <= List.length (filter p (seq 0 n)))%nat) by (refine (row_set_length _ RQ RS); tauto).
  destruct (filter p (seq 0 n)) as [|j l] eqn:F; [left; split; reflexivity|right]. split; [discriminate|].
  destruct (np_ratio_01 LE) as (c & C & C1 & C2); [cbn; lia|]. exists c. rewrite C. auto.
Qed.
Print Assumptions C42_precision.

Theorem C42_precision_errors : forall ds y th,
  precision set_lookup [] ds y th = Err IndexError /\
  (forall f sets rest rules c w vs ant, ds = (f, sets) :: rest -> sets <> [] ->
     precision set_lookup_multi (mkR ((f, vs) :: ant) c w :: rules) ds y th = Err TypeError).
Proof.
  intros ds y th. split; [reflexivity|]. intros f sets rest rules c w vs ant -> N. destruct sets as [|[v col] sets]; [congruence|].
  unfold precision, fuzzy_coverage, covered_instances, data_length. cbn. rewrite eqb_refl. reflexivity.
Qed.
Print Assumptions C42_precision_errors.

Example C42_instance : precision set_lookup [mx_low] mx_ds [1; 0; 1]%Z (qc 1 1000) = Ok (Some (qc 1 2)) /\
  precision set_lookup [mx_low] mx_ds [1; 0; 1]%Z 1 = Ok None.
Proof. split; qex. Qed.

(** ** C43 *)
Theorem C43_fidelity : forall y y', List.length y = List.length y' -> y <> [] ->
  exists f l, fidelity y y' = Ok (Some f) /\ row_set (List.length y) (fun j => nth_error y j = nth_error y' j) l /\
    f = qn (List.length l) / qn (List.length y) /\ 0 <= f /\ f <= 1 /\ (f = 1 <-> y = y') /\ fidelity y' y = Ok (Some f).
Proof.
  intros y y' L N. pose proof (@agree_set y y' L) as RS. unfold fidelity. rewrite <- L, Nat.eqb_refl. cbn [negb]. rewrite (@map2_eqb_count y y' L).
  assert (P : (0 < List.length y)%nat) by (destruct y; [congruence|cbn; lia]).
  destruct (@np_ratio_01 (List.length (filter (fun j => Z.eqb (nth j y 0%Z) (nth j y' 0%Z)) (seq 0 (List.length y)))) (List.length y)) as (c & C & C1 & C2 & C3); [apply (row_set_bound RS)|assumption|].
  exists c. eexists. split; [rewrite C; reflexivity|]. split; [eassumption|]. split; [assumption|]. split; [assumption|]. split; [assumption|]. split; [split|].
  - intro E. rewrite E in C1. symmetry in C1. apply Qcdiv_eq in C1; [|intro Z; apply qn_pos in P; rewrite Z in P; qlra]. rewrite Qcmult_1_l in C1. apply qn_inj in C1.
    apply nth_error_ext; [assumption|]. intros i Hi. apply RS.
    assert (I : incl (seq 0 (List.length y)) (filter (fun j => Z.eqb (nth j y 0%Z) (nth j y' 0%Z)) (seq 0 (List.length y)))).
    { apply NoDup_length_incl; [apply RS|rewrite seq_length; lia|intros j Hj; apply filter_In in Hj; tauto]. }
    apply I. apply in_seq. lia.
  - intros <-. rewrite C1. replace (filter (fun j => Z.eqb (nth j y 0%Z) (nth j y 0%Z)) (seq 0 (List.length y))) with (seq 0 (List.length y)).
    + rewrite seq_length. field. intro Z. apply qn_pos in P. rewrite Z in P. qlra.
    + generalize (seq 0 (List.length y)). clear. intro s. induction s as [|j s IH]; [reflexivity|]. cbn. rewrite Z.eqb_refl, <- IH. reflexivity.
  - rewrite (@map2_eqb_count y' y (eq_sym L)), <- L. rewrite <- C. apply f_equal. f_equal. f_equal. apply filter_ext. intro j. apply Z.eqb_sym.
Qed.
Print Assumptions C43_fidelity.

Theorem C43_rule_fidelity : forall ds n th rules y y', rows_of ds n -> rules <> [] -> (forall r, In r rules -> rule_known ds r) ->
  List.length y = n -> List.length y' = n ->
  exists covered agree,
    row_set n (fun j => forall r, In r rules -> covers ds th r j) covered /\
    row_set n (fun j => (forall r, In r rules -> covers ds th r j) /\ nth_error y j = nth_error y' j) agree /\
    ((covered = [] /\ rule_fidelity set_lookup y y' ds rules th = Ok None) \/
     (covered <> [] /\ exists p, rule_fidelity set_lookup y y' ds rules th = Ok (Some p) /\
        p = qn (List.length agree) / qn (List.length covered) /\ 0 <= p /\ p <= 1)) /\
    ((forall j, (j < n)%nat -> forall r, In r rules -> covers ds th r j) -> rule_fidelity set_lookup y y' ds rules th = fidelity y y').
Proof.
  intros ds n th rules y y' R N K L L'.
  set (p := fun j => forallb (fun r => coverb ds th r j) rules). set (e := fun j => Z.eqb (nth j y 0%Z) (nth j y' 0%Z)). set (q := fun j => p j && e j).
  assert (RS : row_set n (fun j => forall r, In r rules -> covers ds th r j) (filter p (seq 0 n))).
  { apply row_set_filter. intros j Hj. apply forallb_all_covers with (n := n); assumption. }
  assert (RQ : row_set n (fun j => (forall r, In r rules -> covers ds th r j) /\ nth_error y j = nth_error y' j) (filter q (seq 0 n))).
  { apply row_set_filter. intros j Hj. unfold q, e. rewrite andb_true_iff, Z.eqb_eq. unfold p. rewrite (@forallb_all_covers ds n th rules j R K Hj).
    rewrite nth_eq_Some by lia. rewrite (nth_error_nth' y' 0%Z) by lia. reflexivity. }
  assert (E : rule_fidelity set_lookup y y' ds rules th = Ok (np_ratio (List.length (filter q (seq 0 n))) (List.length (filter p (seq 0 n))))).
  { unfold rule_fidelity. rewrite (@coverage_spec ds n th rules R N K). cbn [bind fst snd]. fold p.
    rewrite (@select_map Z 0%Z p y n L), (@select_map Z 0%Z p y' n L'). cbn [bind]. rewrite map2_map_seq, !count_true_map. fold e. rewrite filter_filter. reflexivity. }
  exists (filter p (seq 0 n)), (filter q (seq 0 n)). split; [assumption|]. split; [assumption|]. split.
  - rewrite E. assert (LE : (List.length (filter q (seq 0 n)) <= List.length (filter p (seq 0 n)))%nat) by (refine (row_set_length _ RQ RS); tauto).
    destruct (filter p (seq 0 n)) as [|j l] eqn:F; [left; split; reflexivity|right]. split; [discriminate|].
    destruct (np_ratio_01 LE) as (c & C & C1 & C2); [cbn; lia|]. exists c. rewrite C. auto.
  - intro A. rewrite E. unfold fidelity. rewrite L, L', Nat.eqb_refl. cbn [negb]. rewrite map2_eqb_count, L by lia.
    assert (F : forall j, In j (seq 0 n) -> p j = true). { intros j Hj. apply in_seq in Hj. unfold p. apply (@forallb_all_covers ds n th rules j R K); [lia|apply A; lia]. }
    assert (F1 : filter p (seq 0 n) = seq 0 n). { revert F. generalize (seq 0 n). clear. intros s F. induction s as [|j s IH]; [reflexivity|]. cbn. rewrite F by (left; reflexivity). f_equal. apply IH. intros; apply F; right; assumption. }
    assert (F2 : filter q (seq 0 n) = filter e (seq 0 n)) by (apply filter_ext_in; intros j Hj; unfold q; rewrite (F j Hj); reflexivity).
    rewrite F1, F2, seq_length. reflexivity.
Qed.
Print Assumptions C43_rule_fidelity.

Example C43_instance : rule_fidelity set_lookup [1; 0; 1]%Z [1; 1; 0]%Z mx_ds [mx_low] (qc 1 1000) = Ok (Some (qc 1 2)) /\
  fidelity [1; 0; 1]%Z [1; 1; 0]%Z = Ok (Some (qc 1 3)).
Proof. split; qex. Qed.

(** ** C44 *)
Theorem C44_distance_formula : forall n continuous discrete mad a b,
  instance_ok n continuous discrete mad a -> instance_ok n continuous discrete mad b ->
  proximity_dissimilarity a b continuous discrete mad = Ok (qsum (map (feature_distance continuous discrete mad a b) (seq 0 n))).
Proof. intros n con dis mad a b Oa Ob. exact (@moth_formula n con dis mad a b Oa Ob). Qed.
Print Assumptions C44_distance_formula.

Theorem C44_pseudometric : forall n continuous discrete mad a b c,
  instance_ok n continuous discrete mad a -> instance_ok n continuous discrete mad b -> instance_ok n continuous discrete mad c ->
  exists ab ba bc ac,
    proximity_dissimilarity a b continuous discrete mad = Ok ab /\ proximity_dissimilarity b a continuous discrete mad = Ok ba /\
    proximity_dissimilarity b c continuous discrete mad = Ok bc /\ proximity_dissimilarity a c continuous discrete mad = Ok ac /\
    0 <= ab /\ ab = ba /\ (ab = 0 <-> a = b) /\ ac <= ab + bc.
Proof.
  intros n con dis mad a b c Oa Ob Oc. do 4 eexists. do 4 (split; [apply (@C44_distance_formula n); assumption|]).
  assert (F := fun i Hi => @fd_facts n con dis mad a b c i Oa Ob Oc Hi). cbv beta zeta in F.
  assert (F' : forall i, In i (seq 0 n) -> (i < n)%nat) by (intros i Hi; apply in_seq in Hi; lia).
  split; [|split; [|split; [split|]]].
  - apply qsum_nonneg. apply Forall_forall. intros q Hq. apply in_map_iff in Hq. destruct Hq as [i [<- Hi]]. apply F; auto.
  - f_equal. apply map_ext_in. intros i Hi. apply F; auto.
  - intro Z. apply nth_error_ext; [destruct Oa, Ob; congruence|]. intros i Hi. destruct Oa as [La _]. apply F; [lia|].
    eapply (@qsum_zero_terms _ (feature_distance con dis mad a b)); [|exact Z|apply in_seq; lia]. intros j Hj. apply F; auto.
  - intros ->. apply qsum_map_zero. intros i Hi. apply F; auto.
  - rewrite <- qsum_map_plus. apply qsum_map_le. intros i Hi. apply F; auto.
Qed.
Print Assumptions C44_pseudometric.

Example C44_instance : instance_ok 2 [0%nat] [1%nat] [(0%nat, qz 2)] [CNum (qz 3); CStr "a"] /\
  proximity_dissimilarity [CNum (qz 3); CStr "a"] [CNum (qz 4); CStr "b"] [0%nat] [1%nat] [(0%nat, qz 2)] = Ok (qc 3 2).
Proof.
  split; [|qex]. split; [reflexivity|]. intros [|[|i]] x H; [| |destruct i; discriminate]; injection H as <-; split; intro M.
  - exists (qz 3), (qz 2). repeat split; reflexivity.
  - exfalso. apply M. left. reflexivity.
  - exfalso. destruct M as [M|[]]. discriminate.
  - left. reflexivity.
Qed.

(** ** C45 *)
Lemma sparsity_count a b : fold_left (fun n p => (n + neq_cell (fst p) (snd p))%nat) (zip a b) 0%nat = nsum (map2 neq_cell a b).
Proof.
  assert (G : forall l k, fold_left (fun n (p : cell * cell) => (n + neq_cell (fst p) (snd p))%nat) l k = (k + nsum (map (fun p => neq_cell (fst p) (snd p)) l))%nat).
  { induction l as [|p l IH]; intro k; cbn [fold_left map nsum fold_right]; [lia|]. rewrite IH. fold (nsum (map (fun p0 => neq_cell (fst p0) (snd p0)) l)). lia. }
  rewrite G, map2_zip. reflexivity.
Qed.
Lemma nsum_cons x l : nsum (x :: l) = (x + nsum l)%nat. Proof. reflexivity. Qed.
Lemma neq_cell_facts x y z : (neq_cell x y <= 1)%nat /\ neq_cell x y = neq_cell y x /\ (neq_cell x y = 0%nat <-> x = y) /\ (neq_cell x z <= neq_cell x y + neq_cell y z)%nat.
Proof.
  unfold neq_cell, eqb. destruct (eq_dec x y), (eq_dec y x), (eq_dec x z), (eq_dec y z); try congruence; repeat split; try congruence; try lia.
Qed.
Theorem C45_sparsity : forall a b c, a <> [] -> List.length a = List.length b -> List.length b = List.length c ->
  exists ab ba bc ac l, sparsity a b = Ok ab /\ sparsity b a = Ok ba /\ sparsity b c = Ok bc /\ sparsity a c = Ok ac /\
    row_set (List.length a) (fun i => nth_error a i <> nth_error b i) l /\ ab = qn (List.length l) / qn (List.length a) /\
    0 <= ab /\ ab <= 1 /\ ab = ba /\ (ab = 0 <-> a = b) /\ ac <= ab + bc.
Proof.
  intros a b c N L1 L2. assert (P : 0 < qn (List.length a)) by (apply qn_pos; destruct a; [congruence|cbn; lia]).
  assert (NZ : qn (List.length a) <> 0) by (intro Z; rewrite Z in P; qlra).
  assert (E : forall u v, List.length u = List.length a -> sparsity u v = Ok (qn (nsum (map2 neq_cell u v)) / qn (List.length a))).
  { intros u v Lu. unfold sparsity, pdiv. rewrite sparsity_count, Lu. destruct (qeqb_spec (qn (List.length a)) 0); [contradiction|reflexivity]. }
  do 4 eexists. exists (filter (fun i => negb (Nat.eqb (nth i (map2 neq_cell a b) 0%nat) 0)) (seq 0 (List.length a))).
  repeat (split; [apply E; congruence|]).
  assert (RS : row_set (List.length a) (fun i => nth_error a i <> nth_error b i) (filter (fun i => negb (Nat.eqb (nth i (map2 neq_cell a b) 0%nat) 0)) (seq 0 (List.length a)))).
  { apply row_set_filter. intros j Hj. rewrite negb_true_iff, Nat.eqb_neq. clear - Hj L1. revert j b L1 Hj. induction a as [|x a IH]; intros j [|y b] L Hj; cbn in *; try lia.
    destruct j as [|j]; cbn; [|apply IH; lia]. destruct (@neq_cell_facts x y y) as (_ & _ & H & _). rewrite H. split; congruence. }
  assert (Ln : nsum (map2 neq_cell a b) = List.length (filter (fun i => negb (Nat.eqb (nth i (map2 neq_cell a b) 0%nat) 0)) (seq 0 (List.length a)))).
  { clear - L1. revert b L1. induction a as [|x a IH]; intros [|y b] L; try discriminate; [reflexivity|]. cbn in L. cbn [map2 nsum fold_right List.length seq filter]. change (nth 0 (neq_cell x y :: map2 neq_cell a b) 0%nat) with (neq_cell x y).
    rewrite <- seq_shift. fold (nsum (map2 neq_cell a b)). rewrite (IH b) by lia.
    assert (G : forall k s, List.length (filter (fun i => negb (Nat.eqb (nth i (k :: map2 neq_cell a b) 0%nat) 0)) (map S s)) = List.length (filter (fun i => negb (Nat.eqb (nth i (map2 neq_cell a b) 0%nat) 0)) s)).
    { intro k. induction s as [|k' s IHs]; [reflexivity|]. cbn [map filter]. change (nth (S k') (k :: map2 neq_cell a b) 0%nat) with (nth k' (map2 neq_cell a b) 0%nat). destruct (negb (Nat.eqb (nth k' (map2 neq_cell a b) 0%nat) 0)); cbn [List.length]; rewrite IHs; reflexivity. }
    destruct (neq_cell_facts x y y) as [H _]. destruct (neq_cell x y) as [|[|k]] eqn:Q; [| |lia]; cbn [Nat.eqb negb]; cbn [List.length]; rewrite G; reflexivity. }
  split; [assumption|]. split; [rewrite Ln; reflexivity|].
  split; [apply Qcle_div; [assumption|]; rewrite Qcmult_0_l; apply qn_nonneg|].
  split; [apply Qcdiv_le; [assumption|]; rewrite Qcmult_1_l; apply qn_le; rewrite Ln; apply (row_set_bound RS)|].
  split; [f_equal; f_equal; clear - L1; revert b L1; induction a as [|x a IH]; intros [|y b] L; try discriminate; [reflexivity|]; cbn in L; cbn [map2]; rewrite !nsum_cons; rewrite (IH b) by lia; destruct (neq_cell_facts x y y) as (_ & -> & _); reflexivity|].
  split.
  - rewrite Qcdiv_eq by assumption. rewrite Qcmult_0_l, <- qn_0, qn_inj. clear - L1. revert b L1. induction a as [|x a IH]; intros [|y b] L; try discriminate; [split; reflexivity|].
    cbn in L; cbn [map2]; rewrite !nsum_cons. destruct (neq_cell_facts x y y) as (_ & _ & H & _). assert (L' : List.length a = List.length b) by lia. specialize (IH b L'). split.
    + intro Z. f_equal; [apply H; lia|apply IH; lia].
    + intro Z. injection Z as -> ->. assert (neq_cell y y = 0%nat) by (apply H; reflexivity). assert (nsum (map2 neq_cell b b) = 0%nat) by (apply IH; reflexivity). lia.
  - apply Qcdiv_le; [assumption|]. rewrite Qcmult_plus_distr_l, !Qcdiv_mult by assumption. rewrite <- qn_plus. apply qn_le.
    clear - L1 L2. revert b c L1 L2. induction a as [|x a IH]; intros [|y b] [|z c] L1 L2; try discriminate; [cbn; lia|]. cbn in L1, L2. cbn [map2]. rewrite !nsum_cons.
    destruct (neq_cell_facts x y z) as (_ & _ & _ & H). specialize (IH b c). lia.
Qed.
Print Assumptions C45_sparsity.
Theorem C45_empty_instances : forall b, sparsity [] b = Err ZeroDivisionError.
Proof. reflexivity. Qed.
Example C45_instance : sparsity [CNum 1; CStr "a"; CStr "b"] [CNum 1; CStr "b"; CStr "b"] = Ok (qc 1 3).
Proof. qex. Qed.

(** ** C46 *)
Theorem C46_implausibility : forall n continuous discrete mad cf ds,
  instance_ok n continuous discrete mad cf -> (forall row, In row ds -> instance_ok n continuous discrete mad row) ->
  let d := fun row => proximity_dissimilarity cf row continuous discrete mad in
  exists v, implausibility cf ds continuous discrete mad = Ok v /\
    ((v = 0 /\ forall row, In row ds -> row = cf) \/
     (0 < v /\ (exists row, In row ds /\ row <> cf /\ d row = Ok v) /\
      forall row x, In row ds -> row <> cf -> d row = Ok x -> v <= x)).
Proof.
  intros n con dis mad cf ds O Od d.
  destruct (@closest_spec (fun a b => moth a b con dis mad) cf ds) as (c & E & I). { intros row Hr. eexists. exact (@C44_distance_formula n con dis mad cf row O (Od row Hr)). }
  assert (Z : forall row x, In row ds -> d row = Ok x -> 0 <= x /\ (x = 0 <-> row = cf)).
  { intros row x Hr Hx. destruct (@C44_pseudometric n con dis mad cf row cf O (Od row Hr) O) as (ab & _ & _ & _ & H & _ & _ & _ & P & _ & Q & _).
    unfold d in Hx. rewrite Hx in H. injection H as <-. split; [assumption|]. rewrite Q. split; congruence. }
  unfold implausibility. rewrite E. cbn [bind]. destruct I as [[-> I]|(Hc & x & Hx & P & I)].
  - exists 0. split; [unfold moth, zip; rewrite combine_nil; reflexivity|]. left. split; [reflexivity|]. intros row Hr.
    assert (T : exists x, d row = Ok x) by (eexists; exact (@C44_distance_formula n con dis mad cf row O (Od row Hr))). destruct T as [x Hx].
    destruct (Z row x Hr Hx) as [A B]. apply B. specialize (I row x Hr Hx). qlra.
  - exists x. split; [assumption|]. right. split; [assumption|]. split.
    + exists c. split; [assumption|]. split; [|assumption]. intros ->. destruct (Z cf x Hc Hx) as [_ B]. assert (x = 0) by (apply B; reflexivity). subst. qlra.
    + intros row x' Hr N Hx'. apply (I row x' Hr Hx'). destruct (Z row x' Hr Hx') as [A B]. destruct (Qc_eq_dec x' 0) as [->|D]; [exfalso; apply N, B; reflexivity|]. destruct (Qc_neq_lt D); [qlra|assumption].
Qed.
Print Assumptions C46_implausibility.

(** a counterfactual that is a row of the data is reported at the distance of another row *)
Example C46_instance : implausibility [CNum 0; CStr "a"] [[CNum 0; CStr "a"]; [CNum (qz 3); CStr "a"]; [CNum (qz 2); CStr "a"]] [0%nat] [1%nat] [(0%nat, qz 2)] = Ok 1 /\
  implausibility [CNum 0; CStr "a"] [] [0%nat] [1%nat] [(0%nat, qz 2)] = Ok 0.
Proof. split; qex. Qed.

(** ** C47 *)
Theorem C47_instability : forall n continuous discrete mad instance cf closest cf_closest,
  instance_ok n continuous discrete mad instance -> instance_ok n continuous discrete mad cf ->
  instance_ok n continuous discrete mad closest -> instance_ok n continuous discrete mad cf_closest ->
  exists s dcf di, instability instance cf closest cf_closest continuous discrete mad = Ok s /\
    proximity_dissimilarity cf cf_closest continuous discrete mad = Ok dcf /\
    proximity_dissimilarity instance closest continuous discrete mad = Ok di /\
    s = dcf / (di + 1) /\ 0 <= s /\ s <= dcf /\ (s = 0 <-> cf = cf_closest).
Proof.
  intros n con dis mad a cf c cfc Oa Ocf Oc Ocfc.
  destruct (@C44_pseudometric n con dis mad cf cfc cf Ocf Ocfc Ocf) as (dcf & _ & _ & _ & E1 & _ & _ & _ & P1 & _ & Z1 & _).
  destruct (@C44_pseudometric n con dis mad a c a Oa Oc Oa) as (di & _ & _ & _ & E2 & _ & _ & _ & P2 & _ & _ & _).
  assert (P : 0 < di + 1) by qlra. assert (NZ : di + 1 <> 0) by (intro Z; rewrite Z in P; qlra).
  exists (dcf / (di + 1)), dcf, di. split; [|split; [assumption|split; [assumption|split; [reflexivity|]]]].
  - unfold instability. unfold proximity_dissimilarity in *. rewrite E1, E2. cbn [bind]. unfold pdiv. destruct (qeqb_spec (di + 1) 0); [contradiction|reflexivity].
  - split; [apply Qcle_div; [assumption|qlra]|]. split; [apply Qcdiv_le; [assumption|]; clear - P1 P2; qnra|].
    rewrite <- Z1, Qcdiv_eq by assumption. rewrite Qcmult_0_l. reflexivity.
Qed.
Print Assumptions C47_instability.
Example C47_instance : instability [CNum 0] [CNum (qz 4)] [CNum (qz 2)] [CNum (qz 6)] [0%nat] [] [(0%nat, qz 2)] = Ok (qc 1 2).
Proof. qex. Qed.
