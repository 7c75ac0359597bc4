(** * C64, C65, C84: the sampling neighbourhood and the 'mixed' distance *)
From Verif Require Import Prelude M_Fuzzy M_Discretize M_Rule M_FDT M_Neighborhood S_Neighborhood P_FuzzySet P_FuzzyVar P_Entropy P_Metrics P_Counterfactual M_Sampling S_Sampling P_Sampling P_Sampling2.
From Coq Require Import Reals Lra.
Set Implicit Arguments.
Open Scope string_scope. Open Scope list_scope. Open Scope Qc_scope.

(** C84: the 'mixed' distance: the formula, non-negative, symmetric, zero exactly for rows that agree on all features, and
    the closest instance is a row at the least positive distance ([] if there is none) *)
Theorem C84_mixed_distance : forall cont disc w a b, (0 < w)%nat ->
  (forall i, In i cont \/ In i disc -> (i < w)%nat) -> List.length a = w -> List.length b = w ->
  exists v, mixed_metric cont disc a b = Ok v /\ v = mixed_value cont disc w a b /\ (0 <= v)%R /\ mixed_metric cont disc b a = Ok v /\
    (v = 0%R <-> forall i, In i cont \/ In i disc -> nth_error a i = nth_error b i).
Proof.
  intros cont disc w a b P I La Lb. exists (mixed_value cont disc w a b).
  assert (C : indexes_ok w cont) by (intros i H; auto). assert (D : indexes_ok w disc) by (intros i H; auto).
  split; [apply mixed_ok; assumption|]. split; [reflexivity|]. split; [apply mixed_nonneg; assumption|]. split; [rewrite mixed_sym; apply mixed_ok; assumption|].
  rewrite (mixed_zero cont disc a b P). split; intros H i J; specialize (H i J); specialize (I i J).
  - rewrite (nth_error_nth' a 0) by lia. rewrite (nth_error_nth' b 0) by lia. congruence.
  - rewrite (nth_error_nth' a 0) in H by lia. rewrite (nth_error_nth' b 0) in H by lia. congruence.
Qed.
Theorem C84_closest_mixed : forall cont disc w inst rows, (0 < w)%nat ->
  (forall i, In i cont \/ In i disc -> (i < w)%nat) -> List.length inst = w -> matrix w rows ->
  exists c, closest_mixed cont disc inst rows = Ok c /\
    ((c = [] /\ forall r, In r rows -> mixed_value cont disc w inst r = 0%R) \/ nearest (mixed_value cont disc w) inst rows c).
Proof. intros cont disc w inst rows P I L M. apply closest_mixed_spec; auto; intros i H; auto. Qed.

(** C65: the values of a column are its admissible ones, in increasing order; their probabilities are positive, sum to 1 and are
    proportional to the numbers of occurrences *)
Definition occurrences (X : list (list Qc)) (i : nat) (v : Qc) : nat := List.length (filter (fun x => qeqb x v) (col_of X i)).
Theorem C65_distributions : forall nr w X centre cont pd, prob_dist nr (transpose w X) centre cont = Ok pd ->
  List.length pd = w /\ forall i vals probs, nth_error pd i = Some (vals, probs) ->
    StronglySorted Qclt vals /\ (forall x, In x vals <-> admissible nr X cont centre i x) /\ List.length probs = List.length vals /\
    (forall p, In p probs -> 0 < p) /\ (vals <> [] -> qsum probs = 1) /\
    (forall j k v p v' p', nth_error vals j = Some v -> nth_error probs j = Some p -> nth_error vals k = Some v' -> nth_error probs k = Some p' ->
       p * qn (occurrences X i v') = p' * qn (occurrences X i v)).
Proof.
  intros nr w X centre cont pd H. destruct (prob_dist_spec _ _ _ _ _ H) as (L & S). split; [assumption|]. intros i vals probs Hi.
  destruct (S i _ Hi) as (vals' & E & St & A). unfold weigh in E. injection E as <- ->.
  change (fun v => qn (countb (fun x => qeqb x v) (col_of X i))) with (fun v => qn (occurrences X i v)).
  remember (qsum (map (fun v => qn (occurrences X i v)) vals)) as T eqn:ET.
  assert (Pos : forall v, In v vals -> 0 < qn (occurrences X i v)).
  { intros v I. apply A in I. destruct I as (I & _). apply qn_pos. unfold occurrences. assert (F : In v (filter (fun x => qeqb x v) (col_of X i))) by (apply filter_In; split; [assumption|apply qeqb_refl]).
    destruct (filter _ _); [destruct F|cbn; lia]. }
  assert (PT : vals <> [] -> 0 < T).
  { intro N. subst T. destruct vals as [|v vals]; [congruence|]. cbn [map]. rewrite qsum_cons. assert (0 <= qsum (map (fun v => qn (occurrences X i v)) vals)).
    { apply qsum_nonneg. apply Forall_forall. intros y I. apply in_map_iff in I. destruct I as (z & <- & _). apply qn_nonneg. }
    pose proof (Pos v (or_introl eq_refl)). qlra. }
  split; [assumption|]. split; [assumption|]. split; [rewrite !map_length; reflexivity|]. split; [|split].
  - intros p I. rewrite map_map in I. apply in_map_iff in I. destruct I as (v & <- & I). apply Qclt_div; [apply PT; destruct vals; [destruct I|discriminate]|]. rewrite Qcmult_0_l. auto.
  - intro N. specialize (PT N). rewrite map_map. assert (Z : T <> 0) by (apply not_eq_sym, Qclt_not_eq; assumption).
    transitivity (/ T * qsum (map (fun v => qn (occurrences X i v)) vals)). { rewrite <- qsum_map_mult. f_equal. apply map_ext. intro v. unfold Qcdiv. ring. }
    rewrite <- ET. field. assumption.
  - intros j k v p v' p' Hv Hp Hv' Hp'. rewrite map_map, nth_error_map in Hp, Hp'. rewrite Hv in Hp. rewrite Hv' in Hp'. cbn in Hp, Hp'. injection Hp as <-. injection Hp' as <-.
    unfold Qcdiv. ring.
Qed.

(** C64: the result of the fast generation, for every stream of random choices: the instance preceded by generated rows; these are
    the rows kept from [m] rounds of two draws, alternately around the instance and around the nearest row of another class; the
    loop ends when there are [size] rows or after 100 * size + 1 rounds; each class keeps its first share of the draws *)
Theorem C64_fast_sampling : forall rnd bb fuel nr d class_name w X instance size tb,
  (0 < w)%nat -> matrix w X -> List.length instance = w ->
  (forall i, In i (idx_of (s_continuous d) d) \/ In i (idx_of (s_discrete d) d) -> (i < w)%nat) ->
  generate rnd bb "fast" fuel nr d class_name w X instance size = Ok tb ->
  let cont := idx_of (s_continuous d) d in
  let dist := mixed_value cont (idx_of (s_discrete d) d) w in
  let others := filter (fun r => negb (Z.eqb (bb r) (bb instance))) X in
  exists generated drawn m closest,
    tb_cols tb = feature_names d class_name /\ tb_rows tb = map (map CNum) (generated ++ [instance]) /\
    ((closest = [] /\ forall r, In r others -> dist instance r = 0%R) \/ nearest dist instance others closest) /\
    List.length drawn = (2 * m)%nat /\
    (forall j row, nth_error drawn j = Some row -> drawn_around nr X w cont (if Nat.even j then instance else closest) row) /\
    subsequence generated drawn /\
    (forall r, In r drawn -> (0 <= bb r < Z.of_nat (s_outcomes d))%Z) /\
    (forall c, of_class bb c generated = Nat.min (share size (s_outcomes d)) (of_class bb c drawn)) /\
    (List.length generated <= size + 1)%nat /\ (m <= 100 * size + 1)%nat /\ (size <= List.length generated \/ m = 100 * size + 1)%nat.
Proof.
  intros rnd bb fuel nr d cn w X inst size tb P M L I H. cbv zeta. cbn [generate] in H. change (generate_fast rnd bb fuel nr d cn w X inst size = Ok tb) in H.
  unfold generate_fast in H. cbv zeta in H.
  match type of H with bind ?r _ = _ => destruct r as [pd|] eqn:E1; [|discriminate] end. cbn [bind] in H.
  match type of H with bind ?r _ = _ => destruct r as [cl|] eqn:E2; [|discriminate] end. cbn [bind] in H.
  match type of H with bind ?r _ = _ => destruct r as [cpd|] eqn:E3; [|discriminate] end. cbn [bind] in H.
  match type of H with bind ?r _ = _ => destruct r as [(m & s)|] eqn:E4; [|discriminate] end. cbn [bind] in H.
  destruct (forallb _ _) eqn:F; [|discriminate]. injection H as <-. cbn [tb_cols tb_rows fst snd].
  destruct (@C84_closest_mixed (idx_of (s_continuous d) d) (idx_of (s_discrete d) d) w inst (filter (fun r => negb (Z.eqb (bb r) (bb inst))) X) P I L) as (c & E2' & N).
  { intros r Hr. apply filter_In in Hr. apply M, Hr. }
  rewrite E2 in E2'. injection E2' as <-.
  destruct (@rounds_spec rnd bb (s_outcomes d) (drawn_around nr X w (idx_of (s_continuous d) d) inst) (drawn_around nr X w (idx_of (s_continuous d) d) cl) size pd cpd
     (fun t row D => draw_ok _ _ _ _ _ _ _ E1 D) (fun t row D => draw_ok _ _ _ _ _ _ _ E3 D) fuel 0%nat ([], map (fun i => (Z.of_nat i, 0%nat)) (seq 0 (s_outcomes d))) [] m s E4 (ginv_init bb size (s_outcomes d)))
     as (drawn & (_ & _ & Sub & Q & Rg) & Ld & Alt & Lm & Ls & St); [reflexivity| |lia|cbn; lia|].
  { intros j x Hx. destruct j; discriminate. }
  exists (fst s), drawn, m, cl. splits; auto; try lia. intros j row Hj. specialize (Alt j row Hj). destruct (Nat.even j); assumption.
Qed.
(** the loop needs at most 100 * size + 1 rounds *)
Theorem C64_terminates : forall rnd bb fuel nr d class_name w X instance size, (100 * size + 1 <= fuel)%nat ->
  generate rnd bb "fast" fuel nr d class_name w X instance size = generate rnd bb "fast" (100 * size + 1) nr d class_name w X instance size /\
  ((0 < w)%nat -> matrix w X -> List.length instance = w -> (forall i, In i (idx_of (s_continuous d) d) \/ In i (idx_of (s_discrete d) d) -> (i < w)%nat) ->
   generate rnd bb "fast" fuel nr d class_name w X instance size <> Err OutOfFuel).
Proof.
  intros rnd bb fuel nr d cn w X inst size F. cbn [generate].
  change (generate_fast rnd bb fuel nr d cn w X inst size = generate_fast rnd bb (100 * size + 1) nr d cn w X inst size /\
    ((0 < w)%nat -> matrix w X -> List.length inst = w -> (forall i, In i (idx_of (s_continuous d) d) \/ In i (idx_of (s_discrete d) d) -> (i < w)%nat) -> generate_fast rnd bb fuel nr d cn w X inst size <> Err OutOfFuel)).
  unfold generate_fast. cbv zeta. remember (100 * size + 1)%nat as fl eqn:Ef.
  destruct (prob_dist nr (transpose w X) inst (idx_of (s_continuous d) d)) as [pd|e] eqn:E1; cbn [bind].
  2: { split; [reflexivity|]. intros P M L I. intro C. injection C as ->. revert E1. apply mapM_no_fuel. intros (i & col). destruct (memb i _); [|discriminate].
       destruct nr as [|q|]; cbn; try discriminate; [|destruct (_ && _); cbn; [|discriminate]; destruct (qmaximum col) eqn:Q1; cbn;
         [|apply qmaximum_err in Q1; destruct Q1 as (_ & ->); discriminate]; destruct (qminimum col) eqn:Q2; cbn; [|apply qminimum_err in Q2; destruct Q2 as (_ & ->); discriminate]];
       destruct (Nat.eqb _ 0); try discriminate; destruct (nth_error inst i); discriminate. }
  destruct (closest_mixed _ _ inst _) as [cl|e] eqn:E2; cbn [bind].
  2: { split; [reflexivity|]. intros P M L I. destruct (@C84_closest_mixed (idx_of (s_continuous d) d) (idx_of (s_discrete d) d) w inst (filter (fun r => negb (Z.eqb (bb r) (bb inst))) X) P I L) as (c & E2' & N).
       { intros r Hr. apply filter_In in Hr. apply M, Hr. } congruence. }
  destruct (prob_dist nr (transpose w X) cl (idx_of (s_continuous d) d)) as [cpd|e] eqn:E3; cbn [bind].
  2: { split; [reflexivity|]. intros P M L I. intro C. injection C as ->. revert E3. apply mapM_no_fuel. intros (i & col). destruct (memb i _); [|discriminate].
       destruct nr as [|q|]; cbn; try discriminate; [|destruct (_ && _); cbn; [|discriminate]; destruct (qmaximum col) eqn:Q1; cbn;
         [|apply qmaximum_err in Q1; destruct Q1 as (_ & ->); discriminate]; destruct (qminimum col) eqn:Q2; cbn; [|apply qminimum_err in Q2; destruct Q2 as (_ & ->); discriminate]];
       destruct (Nat.eqb _ 0); try discriminate; destruct (nth_error cl i); discriminate. }
  destruct (@rounds_fuel rnd bb size pd cpd fuel 0%nat ([], map (fun i => (Z.of_nat i, 0%nat)) (seq 0 (s_outcomes d)))) as (R1 & R2); [lia|lia|].
  replace (size * 100 + 1 - 0)%nat with fl in R1 by lia. rewrite <- R1. split; [reflexivity|]. intros _ _ _ _.
  destruct (rounds rnd bb fuel size 0 pd cpd _) as [ts|e]; cbn [bind]; [destruct (forallb _ _); discriminate|congruence].
Qed.
(** the default 'slow' generation always raises TypeError, so fit never produces a table *)
Theorem C64_slow_raises : forall rnd bb fuel nr d class_name w X instance size s o,
  generate rnd bb "slow" fuel nr d class_name w X instance size = Err TypeError /\
  (o_Z o = generate rnd bb "slow" fuel nr d class_name w X instance size ->
   (exists e, snd (sampling_fit s o) = Some e /\ ((exists x, o_decoded o = Ok x) -> e = TypeError)) /\
   get_X (fst (sampling_fit s o)) = get_X s /\ get_y (fst (sampling_fit s o)) = get_y s).
Proof.
  intros. split; [reflexivity|]. intro E. unfold sampling_fit. destruct (o_decoded o) as [x|e]; cbn.
  - rewrite E. cbn. split; [|split; reflexivity]. exists TypeError. auto.
  - split; [|split; reflexivity]. exists e. split; [reflexivity|]. intros (y & C). discriminate.
Qed.
(** fast generation succeeds, for every stream, on a sampling task with a valid range whose continuous columns vary *)
Theorem C64_succeeds : forall rnd bb nr d class_name w X instance size, task bb d class_name w X instance -> valid_range nr ->
  (forall i, In i (idx_of (s_continuous d) d) -> varies X i) ->
  exists tb, generate rnd bb "fast" (100 * size + 1) nr d class_name w X instance size = Ok tb.
Proof.
  intros rnd bb nr d cn w X inst size [M N Cov Idx In_ (r & Ir & Nr) Cl] V W.
  assert (Li : List.length inst = w) by (apply M; assumption). assert (NX : X <> []) by (intro C; subst; destruct In_).
  assert (D : exists i, (i < w)%nat /\ nth i inst 0 <> nth i r 0).
  { destruct (existsb (fun i => negb (qeqb (nth i inst 0) (nth i r 0))) (seq 0 w)) eqn:E.
    - apply existsb_exists in E. destruct E as (i & Ii & Q). apply in_seq in Ii. exists i. split; [lia|]. intro C. rewrite C, qeqb_refl in Q. discriminate.
    - exfalso. apply Nr. f_equal. apply nth_ext with (d := 0) (d' := 0); [rewrite Li; apply M; assumption|]. intros i L. rewrite (M r Ir) in L. destruct (qeqb (nth i r 0) (nth i inst 0)) eqn:Q; [apply qeqb_eq; assumption|].
      assert (existsb (fun i => negb (qeqb (nth i inst 0) (nth i r 0))) (seq 0 w) = true); [|congruence]. apply existsb_exists. exists i. split; [apply in_seq; lia|].
      apply qeqb_neq in Q. rewrite (proj2 (qeqb_neq _ _) (not_eq_sym Q)). reflexivity. }
  destruct D as (i0 & L0 & D0). assert (P : (0 < w)%nat) by lia.
  change (exists tb, generate_fast rnd bb (100 * size + 1) nr d cn w X inst size = Ok tb). unfold generate_fast. cbv zeta.
  destruct (@prob_dist_total nr w X inst (idx_of (s_continuous d) d) NX Li V) as (pd & E1). rewrite E1. cbn [bind].
  assert (Mo : matrix w (filter (fun r => negb (Z.eqb (bb r) (bb inst))) X)). { intros x Hx. apply filter_In in Hx. apply M, Hx. }
  destruct (@C84_closest_mixed (idx_of (s_continuous d) d) (idx_of (s_discrete d) d) w inst _ P Idx Li Mo) as (cl & E2 & [(-> & Z)|(Ic & _)]).
  { exfalso. apply D0. apply (proj1 (mixed_zero (idx_of (s_continuous d) d) (idx_of (s_discrete d) d) inst r P)); [|apply Cov; assumption]. apply Z. apply filter_In. split; [assumption|]. apply Bool.negb_true_iff, Z.eqb_neq. assumption. }
  rewrite E2. cbn [bind]. apply filter_In in Ic. destruct Ic as (Ic & _).
  destruct (@prob_dist_total nr w X cl (idx_of (s_continuous d) d) NX (M cl Ic) V) as (cpd & E3). rewrite E3. cbn [bind].
  assert (T1 : forall t, exists row, draw rnd t pd = Ok row). { intro t. apply (@draw_total rnd t nr w X inst (idx_of (s_continuous d) d) pd E1). intros i L. apply (@self_admissible nr X w); auto. }
  assert (T2 : forall t, exists row, draw rnd t cpd = Ok row). { intro t. apply (@draw_total rnd t nr w X cl (idx_of (s_continuous d) d) cpd E3). intros i L. apply (@self_admissible nr X w); auto. }
  remember (100 * size + 1)%nat as fuel eqn:Ef.
  destruct (@rounds_fuel rnd bb size pd cpd fuel 0%nat ([], map (fun i => (Z.of_nat i, 0%nat)) (seq 0 (s_outcomes d)))) as (_ & R2); [lia|lia|].
  destruct (rounds rnd bb fuel size 0 pd cpd _) as [(m & s)|e] eqn:E4.
  2: { exfalso. apply R2. f_equal. exact (@rounds_total rnd bb (s_outcomes d) size pd cpd T1 T2 Cl _ _ _ _ _ (ginv_init bb size (s_outcomes d)) E4). }
  cbn [bind fst snd].
  destruct (@rounds_spec rnd bb (s_outcomes d) (drawn_around nr X w (idx_of (s_continuous d) d) inst) (drawn_around nr X w (idx_of (s_continuous d) d) cl) size pd cpd
     (fun t row D => draw_ok _ _ _ _ _ _ _ E1 D) (fun t row D => draw_ok _ _ _ _ _ _ _ E3 D) fuel 0%nat ([], map (fun i => (Z.of_nat i, 0%nat)) (seq 0 (s_outcomes d))) [] m s E4 (ginv_init bb size (s_outcomes d)))
     as (drawn & (_ & _ & Sub & _) & _ & Alt & _); [reflexivity| |lia|cbn; lia|].
  { intros j x Hx. destruct j; discriminate. }
  assert (F : forallb (fun r0 => Nat.eqb (List.length r0) (List.length (filter (fun c => negb (eqb c cn)) (s_columns d)))) (fst s ++ [inst]) = true).
  { apply forallb_forall. intros x Hx. apply Nat.eqb_eq. change (List.length x = List.length (feature_names d cn)). rewrite N. apply in_app_or in Hx. destruct Hx as [Hx|[<-|[]]]; [|assumption].
    apply (sub_In _ Sub) in Hx. apply In_nth_error in Hx. destruct Hx as (j & Hj). specialize (Alt j x Hj). destruct (Nat.even j); apply Alt. }
  rewrite F. eexists. reflexivity.
Qed.
(** a continuous column that does not vary has no admissible value: generating any row raises ValueError; so does an invalid range *)
Theorem C65_constant_column : forall rnd bb nr d class_name w X instance size i, task bb d class_name w X instance ->
  In i (idx_of (s_continuous d) d) -> ~ varies X i -> valid_range nr -> (0 < size)%nat ->
  (forall centre x, ~ admissible nr X (idx_of (s_continuous d) d) centre i x) /\
  generate rnd bb "fast" (100 * size + 1) nr d class_name w X instance size = Err ValueError.
Proof.
  intros rnd bb nr d cn w X inst size i0 [M N Cov Idx In_ (r & Ir & Nr) Cl] Ii W V Ps.
  assert (Li : List.length inst = w) by (apply M; assumption). assert (NX : X <> []) by (intro C; subst; destruct In_). pose proof (Idx i0 (or_introl Ii)) as Lw. assert (P : (0 < w)%nat) by lia.
  assert (NA : forall centre x, ~ admissible nr X (idx_of (s_continuous d) d) centre i0 x). { intros centre x (_ & A). destruct (A Ii) as (c & _ & C). exact (@never_close nr X i0 c x NX W C). }
  split; [assumption|].
  change (generate_fast rnd bb (100 * size + 1) nr d cn w X inst size = Err ValueError). unfold generate_fast. cbv zeta.
  destruct (@prob_dist_total nr w X inst (idx_of (s_continuous d) d) NX Li V) as (pd & E1). rewrite E1. cbn [bind].
  assert (Mo : matrix w (filter (fun r => negb (Z.eqb (bb r) (bb inst))) X)). { intros x Hx. apply filter_In in Hx. apply M, Hx. }
  destruct (@C84_closest_mixed (idx_of (s_continuous d) d) (idx_of (s_discrete d) d) w inst _ P Idx Li Mo) as (cl & E2 & Nn). rewrite E2. cbn [bind].
  assert (Hc : List.length cl = w).
  { destruct Nn as [(-> & Z)|(Ic & _)]; [|apply Mo; assumption]. exfalso. apply Nr. f_equal. apply nth_ext with (d := 0) (d' := 0); [rewrite Li; apply M; assumption|]. intros i L. rewrite (M r Ir) in L. symmetry.
    apply (proj1 (mixed_zero (idx_of (s_continuous d) d) (idx_of (s_discrete d) d) inst r P)); [|apply Cov; assumption]. apply Z. apply filter_In. split; [assumption|]. apply Bool.negb_true_iff, Z.eqb_neq. assumption. }
  destruct (@prob_dist_total nr w X cl (idx_of (s_continuous d) d) NX Hc V) as (cpd & E3). rewrite E3. cbn [bind].
  replace (100 * size + 1)%nat with (S (100 * size)) by lia. cbn [rounds]. cbn [fst List.length]. destruct (Nat.ltb_spec 0 size); [|lia]. cbv zeta.
  destruct (draw rnd (2 * 0 * List.length pd) pd) as [row|e] eqn:E.
  - exfalso. destruct (draw_ok _ _ _ _ _ _ _ E1 E) as (Lr & A). destruct (nth_error row i0) as [x|] eqn:Nx; [exact (NA _ _ (A _ _ Nx))|]. apply nth_error_None in Nx. lia.
  - cbn [bind]. rewrite (draw_err _ _ _ E). reflexivity.
Qed.
Theorem C65_invalid_range : forall rnd bb nr d class_name w X instance size i fuel, task bb d class_name w X instance ->
  In i (idx_of (s_continuous d) d) -> ~ valid_range nr -> generate rnd bb "fast" fuel nr d class_name w X instance size = Err ValueError.
Proof.
  intros rnd bb nr d cn w X inst size i0 fuel [M N Cov Idx In_ _ Cl] Ii V.
  change (generate_fast rnd bb fuel nr d cn w X inst size = Err ValueError). unfold generate_fast. cbv zeta.
  rewrite (@prob_dist_bad_range nr w X inst (idx_of (s_continuous d) d) i0); auto. intro C; subst; destruct In_.
Qed.

(** examples: the column "a" is continuous, "b" is discrete; the class is whether a is at least 2 *)
Definition sx_X : list (list Qc) := [[1; 0]; [qz 2; 1]; [qz 3; 0]; [1; 1]].
Definition sx_d : sdata := mkS [(0%nat, "a"); (1%nat, "b")] ["a"] ["b"] 2 ["c"; "a"; "b"].
Definition sx_bb (r : list Qc) : Z := if qltb (nth 0 r 0) (qz 2) then 0%Z else 1%Z.
Definition sx_const : list (list Qc) := [[1; 0]; [1; 1]].
Definition sx_bb2 (r : list Qc) : Z := if qltb (nth 1 r 0) 1 then 0%Z else 1%Z.
Example sx_task : task sx_bb sx_d "c" 2 sx_X [qz 2; 1].
Proof.
  constructor.
  - intros r I. cbn in I. intuition subst; reflexivity.
  - reflexivity.
  - intros i L. destruct i as [|[|i]]; [left|right|lia]; left; reflexivity.
  - intros i H. vm_compute in H. lia.
  - right. left. reflexivity.
  - exists [1; 0]. split; [left; reflexivity|]. vm_compute. discriminate.
  - intro r. unfold sx_bb. destruct (qltb _ _); cbn; lia.
Qed.
Example sx_varies : forall i, In i (idx_of (s_continuous sx_d) sx_d) -> varies sx_X i.
Proof. intros i [<-|[]]. exists 1, (qz 2). split; [left; reflexivity|]. split; [right; left; reflexivity|]. discriminate. Qed.
Example C64_instance : forall rnd, exists tb, generate rnd sx_bb "fast" 1001 RStd sx_d "c" 2 sx_X [qz 2; 1] 10 = Ok tb.
Proof. intro rnd. exact (@C64_succeeds rnd sx_bb RStd sx_d "c" 2 sx_X [qz 2; 1] 10 sx_task I sx_varies). Qed.
Example sx_const_task : task sx_bb2 sx_d "c" 2 sx_const [1; 0].
Proof.
  constructor.
  - intros r I. cbn in I. intuition subst; reflexivity.
  - reflexivity.
  - intros i L. destruct i as [|[|i]]; [left|right|lia]; left; reflexivity.
  - intros i H. vm_compute in H. lia.
  - left. reflexivity.
  - exists [1; 1]. split; [right; left; reflexivity|]. vm_compute. discriminate.
  - intro r. unfold sx_bb2. destruct (qltb _ _); cbn; lia.
Qed.
Example C65_constant_instance : forall rnd, generate rnd sx_bb2 "fast" 1001 RStd sx_d "c" 2 sx_const [1; 0] 10 = Err ValueError.
Proof.
  intro rnd. refine (proj2 (@C65_constant_column rnd sx_bb2 RStd sx_d "c" 2 sx_const [1; 0] 10 0 sx_const_task _ _ I _)); [left; reflexivity| |lia].
  intros (x & y & Ix & Iy & D). cbn in Ix, Iy. intuition congruence.
Qed.
Example C65_instance : prob_dist RStd (transpose 2 sx_X) [qz 2; 1] [0%nat] = Ok [([qz 2], [1]); ([0; 1], [qc 1 2; qc 1 2])] /\
  prob_dist (RFloat (qc 3 4)) (transpose 2 sx_X) [qz 2; 1] [0%nat] = Ok [([1; qz 2; qz 3], [qc 1 2; qc 1 4; qc 1 4]); ([0; 1], [qc 1 2; qc 1 2])].
Proof. split; qex. Qed.

Print Assumptions C84_mixed_distance.
Print Assumptions C84_closest_mixed.
Print Assumptions C65_distributions.
Print Assumptions C64_fast_sampling.
Print Assumptions C64_terminates.
Print Assumptions C64_slow_raises.
Print Assumptions C64_succeeds.
Print Assumptions C65_constant_column.
Print Assumptions C65_invalid_range.
