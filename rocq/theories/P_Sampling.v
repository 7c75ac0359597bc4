(** * Proofs about the sampling neighbourhood *)
From Verif Require Import Prelude M_Fuzzy M_Discretize M_Rule M_FDT M_Neighborhood P_FuzzySet P_FuzzyVar P_Entropy P_Metrics P_Counterfactual M_Sampling S_Sampling.
From Coq Require Import Reals Lra.
Set Implicit Arguments.
Open Scope Qc_scope.

Lemma sub_refl A (l : list A) : subsequence l l.
Proof. induction l; constructor; assumption. Qed.
Lemma sub_In A (l l' : list A) x : subsequence l l' -> In x l -> In x l'.
Proof. induction 1; intro I; [assumption| |right; auto]. destruct I as [->|I]; [left; reflexivity|right; auto]. Qed.
Lemma sub_snoc_keep A (l l' : list A) x : subsequence l l' -> subsequence (l ++ [x]) (l' ++ [x]).
Proof. induction 1; cbn; constructor; auto. constructor. Qed.
Lemma sub_snoc_drop A (l l' : list A) x : subsequence l l' -> subsequence l (l' ++ [x]).
Proof. induction 1; cbn; constructor; auto. constructor. Qed.
Lemma sub_length A (l l' : list A) : subsequence l l' -> (List.length l <= List.length l')%nat.
Proof. induction 1; cbn; lia. Qed.

(** the standard deviation *)
Lemma qmean_R l m : qmean l = Some m -> qr m = mean_R (map qr l).
Proof.
  intro H. destruct l as [|x l]; [discriminate|]. assert (M : m = qsum (x :: l) / qn (List.length (x :: l))) by (cbn [qmean] in H; congruence). subst m. unfold mean_R. rewrite map_length.
  rewrite qr_div by (apply not_eq_sym, Qclt_not_eq, qn_pos; cbn; lia). rewrite qr_qsum, qr_qn. reflexivity.
Qed.
Lemma qr_minus a b : qr (a - b) = (qr a - qr b)%R.
Proof. assert (H : qr a = (qr (a - b) + qr b)%R) by (rewrite <- qr_plus; f_equal; ring). lra. Qed.
Lemma variance_R col v : variance col = Some v -> sqrt (qr v) = std_R (map qr col).
Proof.
  unfold variance. destruct (qmean col) as [m|] eqn:E; [|discriminate]. intro H. unfold std_R. rewrite (qmean_R _ H), <- (qmean_R _ E).
  f_equal. f_equal. rewrite !map_map. apply map_ext. intro x. rewrite qr_mult, qr_minus. reflexivity.
Qed.
Lemma sq_nonneg (a : Qc) : 0 <= a * a.
Proof. destruct (Qclt_le_dec a 0); [qnra|apply Qcmult_nonneg; assumption]. Qed.
Lemma variance_nonneg col v : variance col = Some v -> 0 <= v.
Proof.
  unfold variance. destruct (qmean col) as [m|] eqn:E; [|discriminate]. destruct col as [|x0 col']; [discriminate|]. cbn [map qmean]. intro H. injection H as <-.
  apply Qcle_div; [apply qn_pos; cbn; lia|]. rewrite Qcmult_0_l. apply (@qsum_nonneg ((x0 - m) * (x0 - m) :: map (fun x => (x - m) * (x - m)) col')).
  constructor; [apply sq_nonneg|]. apply Forall_forall. intros y I. apply in_map_iff in I. destruct I as (z & <- & _). apply sq_nonneg.
Qed.
Lemma variance_none col : variance col = None <-> col = [].
Proof. destruct col as [|x col]; [split; reflexivity|]. split; discriminate. Qed.
Lemma sq_lt (d v : R) : (0 <= v)%R -> ((d * d < v)%R <-> (Rabs d < sqrt v)%R).
Proof.
  intro V. rewrite <- (sqrt_Rsqr_abs d). unfold Rsqr. split; intro H.
  - apply sqrt_lt_1; [nra|assumption|assumption].
  - apply sqrt_lt_0 in H; [assumption|nra|assumption].
Qed.
Lemma in_range_spec nr col f : in_range nr col = Ok f -> forall c x, In x col -> (f c x = true <-> close nr col c x).
Proof.
  intros H c x I. destruct nr as [|q|]; cbn [in_range close] in *.
  - injection H as <-. destruct (variance col) as [v|] eqn:V.
    + rewrite qltb_lt, <- (variance_R _ V), <- qr_minus, <- sq_lt by (rewrite <- qr_0; apply qr_le, (variance_nonneg _ V)).
      rewrite <- qr_mult. symmetry. apply qr_lt.
    + apply variance_none in V. subst. destruct I.
  - destruct (qltb 0 q) eqn:Q0; [|discriminate]. destruct (qltb q 1) eqn:Q1; [|discriminate]. cbn [andb] in H.
    destruct (qmaximum col) as [hi|] eqn:HI; [|discriminate]. destruct (qminimum col) as [lo|] eqn:LO; [|discriminate]. cbn [bind] in H. injection H as <-.
    apply qltb_lt in Q0. apply qltb_lt in Q1. destruct (qmaximum_spec _ HI) as (Ihi & Mhi). destruct (qminimum_spec _ LO) as (Ilo & Mlo).
    rewrite Bool.andb_true_iff, !qltb_lt. split.
    + intros (A & B). split; [assumption|]. split; [assumption|]. exists hi, lo. split; [assumption|]. split; [assumption|]. split; [auto|]. unfold qabs. qcase; qlra.
    + intros (_ & _ & hi' & lo' & Ihi' & Ilo' & M & A).
      assert (hi' = hi) as ->. { apply Qcle_antisym; [auto|]. apply M. assumption. }
      assert (lo' = lo) as ->. { apply Qcle_antisym; [|auto]. apply M. assumption. }
      revert A. unfold qabs. qcase; intro; split; qlra.
  - discriminate.
Qed.

Lemma filter_SS A (R : A -> A -> Prop) (p : A -> bool) (s : list A) : StronglySorted R s -> StronglySorted R (filter p s).
Proof.
  induction 1 as [|x l S IH F]; cbn; [constructor|]. destruct (p x); [|assumption]. constructor; [assumption|].
  apply Forall_forall. intros y I. apply filter_In in I. rewrite Forall_forall in F. apply F, I.
Qed.
(** the distributions *)
Lemma transpose_nth w X i col : nth_error (transpose w X) i = Some col -> (i < w)%nat /\ col = col_of X i.
Proof.
  unfold transpose. intro H. assert (L : (i < w)%nat). { rewrite <- (seq_length w 0), <- (map_length (fun i => map (fun r => nth i r 0) X)). apply nth_error_Some. congruence. }
  split; [assumption|]. rewrite nth_error_map in H. rewrite (nth_error_nth' _ 0%nat) in H by (rewrite seq_length; assumption).
  rewrite seq_nth in H by assumption. cbn in H. injection H as <-. reflexivity.
Qed.
Lemma transpose_length w X : List.length (transpose w X) = w.
Proof. unfold transpose. rewrite map_length, seq_length. reflexivity. Qed.
Lemma prob_dist_spec nr w X centre cont pd : prob_dist nr (transpose w X) centre cont = Ok pd ->
  List.length pd = w /\ forall i vp, nth_error pd i = Some vp ->
    exists vals, vp = weigh (col_of X i) vals /\ StronglySorted Qclt vals /\ forall x, In x vals <-> admissible nr X cont centre i x.
Proof.
  intro H. unfold prob_dist in H. split. { apply mapM_length in H. rewrite H. unfold enumerate. rewrite combine_length, seq_length, transpose_length. lia. }
  intros i vp Hi. apply mapM_ok in H. destruct (Forall2_nth_r H _ Hi) as ((i' & col) & E & S).
  apply enumerate_nth_inv in E. cbn [fst snd] in E. destruct E as (-> & E). apply transpose_nth in E. destruct E as (L & ->). cbv beta iota in S.
  destruct (memb i cont) eqn:M.
  - apply memb_In in M. destruct (in_range nr (col_of X i)) as [f|] eqn:R; [|discriminate]. cbn [bind] in S.
    destruct (Nat.eqb_spec (List.length (col_of X i)) 0) as [Z|Z].
    + injection S as <-. exists []. split; [reflexivity|]. split; [constructor|]. intro x. split; [intros []|]. intros (I & _). destruct (col_of X i); [destruct I|discriminate].
    + destruct (nth_error centre i) as [c|] eqn:C; [|discriminate]. cbn [ret_opt bind] in S. injection S as <-.
      eexists. split; [reflexivity|]. split.
      * apply filter_SS. apply qunique_sorted.
      * intro x. rewrite filter_In, qunique_In. unfold admissible. split.
        -- intros (I & F). split; [assumption|]. intros _. exists c. split; [assumption|]. apply (in_range_spec _ _ R); assumption.
        -- intros (I & F). split; [assumption|]. destruct (F M) as (c' & C' & K). rewrite C in C'. injection C' as <-. apply (in_range_spec _ _ R); assumption.
  - apply memb_not_In in M. injection S as <-. eexists. split; [reflexivity|]. split; [apply qunique_sorted|]. intro x. rewrite qunique_In. unfold admissible. tauto.
Qed.

(** drawing rows *)
Lemma draw_ok rnd t nr w X centre cont pd row : prob_dist nr (transpose w X) centre cont = Ok pd -> draw rnd t pd = Ok row ->
  drawn_around nr X w cont centre row.
Proof.
  intros H D. destruct (prob_dist_spec _ _ _ _ _ H) as (L & S). unfold draw in D. split.
  - rewrite (mapM_length _ _ D). unfold enumerate. unfold zip. rewrite combine_length, seq_length. lia.
  - intros i x Hx. apply mapM_ok in D. destruct (Forall2_nth_r D _ Hx) as ((i' & vp) & E & C). apply enumerate_nth_inv in E. cbn [fst snd] in *.
    destruct E as (-> & E). destruct (S i vp E) as (vals & -> & _ & A). apply A. unfold choose in C. cbn [fst weigh] in C.
    destruct (nth_error vals _) as [y|] eqn:N; [|discriminate]. injection C as <-. exact (nth_error_In _ _ N).
Qed.
Lemma of_class_snoc bb c rows r : of_class bb c (rows ++ [r]) = (of_class bb c rows + if Z.eqb (bb r) c then 1 else 0)%nat.
Proof. unfold of_class. rewrite filter_app, app_length. cbn. destruct (Z.eqb (bb r) c); reflexivity. Qed.
Lemma quota n size K : (0 < K)%nat -> qltb (qn n) (qn size / qn K) = Nat.ltb n (share size K).
Proof.
  intro P. apply Bool.eq_iff_eq_true. rewrite qltb_lt, Nat.ltb_lt, Qclt_div by (apply qn_pos; assumption).
  replace (qn n * qn K) with (qn (n * K)). { rewrite qn_lt. unfold share. split; intro H.
    - apply Nat.div_le_lower_bound; nia.
    - pose proof (Nat.div_mod (size + K - 1) K ltac:(lia)). pose proof (Nat.mod_upper_bound (size + K - 1) K ltac:(lia)). nia. }
  unfold qn, qz. apply Qc_is_canon. rewrite this_mult, !this_Q2Qc, Nat2Z.inj_mul, inject_Z_mult. reflexivity.
Qed.
Definition ginv (bb : list Qc -> Z) (size K : nat) (s : gstate) (drawn : list (list Qc)) : Prop :=
  dkeys (snd s) = map Z.of_nat (seq 0 K) /\ (forall c n, dget c (snd s) = Some n -> n = of_class bb c (fst s)) /\
  subsequence (fst s) drawn /\ (forall c, of_class bb c (fst s) = Nat.min (share size K) (of_class bb c drawn)) /\
  (forall r, In r drawn -> (0 <= bb r < Z.of_nat K)%Z).
Lemma keys_range K c : In c (map Z.of_nat (seq 0 K)) <-> (0 <= c < Z.of_nat K)%Z.
Proof.
  rewrite in_map_iff. split.
  - intros (n & <- & I). apply in_seq in I. lia.
  - intro H. exists (Z.to_nat c). split; [lia|]. apply in_seq. lia.
Qed.
Lemma offer_inv bb size K s drawn row s' : ginv bb size K s drawn -> offer bb size s row = Ok s' -> ginv bb size K s' (drawn ++ [row]).
Proof.
  intros (KS & C & S & Q & R) H. destruct s as (rows & counts). cbn [fst snd] in *. unfold offer in H.
  destruct (dget (bb row) counts) as [n|] eqn:D; [|discriminate]. cbn [ret_opt bind] in H.
  assert (LK : List.length counts = K). { rewrite <- (map_length fst counts). change (map fst counts) with (dkeys counts). rewrite KS, map_length, seq_length. reflexivity. }
  assert (IK : (0 <= bb row < Z.of_nat K)%Z). { apply keys_range. rewrite <- KS. exact (dget_Some_key _ _ D). }
  rewrite LK, quota in H by lia. assert (E := C _ _ D). subst n.
  destruct (Nat.ltb_spec (of_class bb (bb row) rows) (share size K)) as [F|F]; injection H as <-; unfold ginv; cbn [fst snd].
  - split. { rewrite dset_keys. rewrite (proj2 (@memb_In _ _ (bb row) (dkeys counts)) (dget_Some_key _ _ D)). assumption. }
    split. { intros c m. rewrite dset_get. rewrite of_class_snoc. unfold eqb. destruct (eq_dec c (bb row)) as [->|N]; intro G.
      - injection G as <-. rewrite Z.eqb_refl. lia.
      - rewrite (C _ _ G). rewrite (proj2 (Z.eqb_neq (bb row) c) (not_eq_sym N)). lia. }
    split; [apply sub_snoc_keep; assumption|]. split.
    + intro c. rewrite !of_class_snoc, Q. destruct (Z.eqb_spec (bb row) c) as [<-|N]; [|lia]. rewrite Q in F. lia.
    + intros r I. apply in_app_or in I. destruct I as [I|[<-|[]]]; auto.
  - split; [assumption|]. split; [assumption|]. split; [apply sub_snoc_drop; assumption|]. split.
    + intro c. rewrite !of_class_snoc, Q. destruct (Z.eqb_spec (bb row) c) as [<-|N]; [|lia]. rewrite Q in F. lia.
    + intros r I. apply in_app_or in I. destruct I as [I|[<-|[]]]; auto.
Qed.
Definition alternating {A} (P Q : A -> Prop) (l : list A) : Prop := forall j x, nth_error l j = Some x -> if Nat.even j then P x else Q x.
Lemma alternating_two A (P Q : A -> Prop) l x y n : List.length l = (2 * n)%nat -> alternating P Q l -> P x -> Q y -> alternating P Q (l ++ [x] ++ [y]).
Proof.
  intros L H Px Qy j z E. destruct (Nat.lt_ge_cases j (List.length l)) as [Lt|Ge].
  - rewrite nth_error_app1 in E by assumption. exact (H j z E).
  - rewrite nth_error_app2 in E by assumption. remember (j - List.length l)%nat as k eqn:K. assert (J : j = (k + 2 * n)%nat) by lia. subst j.
    rewrite Nat.even_add_mul_2. destruct k as [|[|k]]; cbn in E; [injection E as <-; assumption|injection E as <-; assumption|destruct k; discriminate].
Qed.
Lemma offer_length bb size s row s' : offer bb size s row = Ok s' -> (List.length (fst s') <= S (List.length (fst s)))%nat.
Proof.
  destruct s as (rows & counts). unfold offer. intro H. destruct (dget (bb row) counts) as [n|]; [|discriminate]. cbn [ret_opt bind] in H.
  destruct (qltb _ _); injection H as <-; cbn [fst]; [rewrite app_length; cbn|]; lia.
Qed.
Lemma rounds_spec rnd bb K (P Q : list Qc -> Prop) size pd cpd : (forall t row, draw rnd t pd = Ok row -> P row) -> (forall t row, draw rnd t cpd = Ok row -> Q row) ->
  forall fuel tries s drawn m s', rounds rnd bb fuel size tries pd cpd s = Ok (m, s') ->
  ginv bb size K s drawn -> List.length drawn = (2 * tries)%nat -> alternating P Q drawn -> (tries <= size * 100)%nat -> (List.length (fst s) <= size + 1)%nat ->
  exists drawn', ginv bb size K s' drawn' /\ List.length drawn' = (2 * m)%nat /\ alternating P Q drawn' /\ (m <= size * 100 + 1)%nat /\
    (List.length (fst s') <= size + 1)%nat /\ (size <= List.length (fst s') \/ m = size * 100 + 1)%nat.
Proof.
  intros DP DQ. induction fuel as [|fuel IH]; intros tries s drawn m s' H G L A T B; cbn [rounds] in H.
  - destruct (Nat.ltb_spec (List.length (fst s)) size); [discriminate|]. injection H as <- <-. exists drawn. splits; auto; lia.
  - destruct (Nat.ltb_spec (List.length (fst s)) size) as [Lt|Ge].
    2: { injection H as <- <-. exists drawn. splits; auto; lia. }
    match type of H with bind ?r _ = _ => destruct r as [x|] eqn:Ex; [|discriminate] end. cbn [bind] in H.
    match type of H with bind ?r _ = _ => destruct r as [y|] eqn:Ey; [|discriminate] end. cbn [bind] in H.
    match type of H with bind ?r _ = _ => destruct r as [s1|] eqn:E1; [|discriminate] end. cbn [bind] in H.
    match type of H with bind ?r _ = _ => destruct r as [s2|] eqn:E2; [|discriminate] end. cbn [bind] in H.
    pose proof (offer_inv _ G E1) as G1. pose proof (offer_inv _ G1 E2) as G2. rewrite <- app_assoc in G2.
    assert (A2 := @alternating_two _ P Q drawn x y tries L A (DP _ _ Ex) (DQ _ _ Ey)).
    assert (L2 : List.length (drawn ++ [x] ++ [y]) = (2 * S tries)%nat) by (rewrite app_length; cbn; lia).
    pose proof (offer_length _ _ _ _ E1). pose proof (offer_length _ _ _ _ E2).
    destruct (Nat.ltb_spec (size * 100) (S tries)) as [St|Go].
    + injection H as <- <-. exists (drawn ++ [x] ++ [y]). splits; auto; lia.
    + apply (IH _ _ _ _ _ H G2 L2 A2); lia.
Qed.
Lemma offer_no_fuel bb size s row : offer bb size s row <> Err OutOfFuel.
Proof. destruct s as (rows & counts). unfold offer. destruct (dget _ _); cbn; [|discriminate]. destruct (qltb _ _); discriminate. Qed.
Lemma mapM_no_fuel A B (f : A -> res B) l : (forall x, f x <> Err OutOfFuel) -> mapM f l <> Err OutOfFuel.
Proof. intro H. induction l as [|x l IH]; cbn; [discriminate|]. specialize (H x). destruct (f x); cbn; [|congruence]. destruct (mapM f l); cbn; congruence. Qed.
Lemma draw_no_fuel rnd t pd : draw rnd t pd <> Err OutOfFuel.
Proof. apply mapM_no_fuel. intros (i & vp). unfold choose. cbn. destruct (nth_error _ _); discriminate. Qed.
Lemma rounds_fuel rnd bb size pd cpd : forall fuel tries s, (tries <= size * 100)%nat -> (size * 100 + 1 - tries <= fuel)%nat ->
  rounds rnd bb fuel size tries pd cpd s = rounds rnd bb (size * 100 + 1 - tries) size tries pd cpd s /\ rounds rnd bb fuel size tries pd cpd s <> Err OutOfFuel.
Proof.
  induction fuel as [|fuel IH]; intros tries s T F; [lia|]. remember (size * 100 + 1 - tries)%nat as m eqn:M. destruct m as [|m]; [lia|].
  cbn [rounds]. destruct (Nat.ltb_spec (List.length (fst s)) size) as [Lt|Ge]; [|split; [reflexivity|discriminate]].
  match goal with |- bind ?r _ = _ /\ _ => pose proof (draw_no_fuel _ _ _ : r <> _); destruct r as [x|]; cbn [bind]; [|split; [reflexivity|congruence]] end.
  match goal with |- bind ?r _ = _ /\ _ => pose proof (draw_no_fuel _ _ _ : r <> _); destruct r as [y|]; cbn [bind]; [|split; [reflexivity|congruence]] end.
  match goal with |- bind ?r _ = _ /\ _ => pose proof (offer_no_fuel _ _ _ _ : r <> _); destruct r as [s1|]; cbn [bind]; [|split; [reflexivity|congruence]] end.
  match goal with |- bind ?r _ = _ /\ _ => pose proof (offer_no_fuel _ _ _ _ : r <> _); destruct r as [s2|]; cbn [bind]; [|split; [reflexivity|congruence]] end.
  destruct (Nat.ltb_spec (size * 100) (S tries)) as [St|Go]; [split; [reflexivity|discriminate]|].
  replace m with (size * 100 + 1 - S tries)%nat by lia. apply IH; lia.
Qed.

(** the 'mixed' distance *)
Lemma pick_ok row idx : (forall i, In i idx -> (i < List.length row)%nat) -> pick row idx = Ok (map (fun i => nth i row 0) idx).
Proof.
  intro H. unfold pick. rewrite <- mapM_pure. apply mapM_ext. intros i I. rewrite (nth_error_nth' _ 0) by (apply H; assumption). reflexivity.
Qed.
Lemma map2_maps A B C D (f : B -> C -> D) (g : A -> B) (h : A -> C) l : map2 f (map g l) (map h l) = map (fun x => f (g x) (h x)) l.
Proof. induction l; cbn; congruence. Qed.
Lemma zip_maps A B C (g : A -> B) (h : A -> C) l : zip (map g l) (map h l) = map (fun x => (g x, h x)) l.
Proof. induction l as [|x l IH]; cbn; [reflexivity|]. f_equal. exact IH. Qed.
Lemma countb_map A B (f : A -> B) p l : countb p (map f l) = countb (fun x => p (f x)) l.
Proof. unfold countb. induction l as [|x l IH]; cbn; [reflexivity|]. destruct (p (f x)); cbn; congruence. Qed.
Lemma differ_present disc a b : (differ disc a b <= present disc a b)%nat.
Proof.
  unfold differ, present. induction disc as [|i l IH]; cbn [filter]; [lia|]. destruct (qeqb (nth i a 0) (nth i b 0)) eqn:E; cbn [negb].
  - destruct (negb _); cbn; lia.
  - assert (qeqb (nth i a 0) 0 && qeqb (nth i b 0) 0 = false) as ->; [|cbn; lia].
    apply Bool.not_true_is_false. intro C. apply Bool.andb_true_iff in C. destruct C as (C1 & C2). apply qeqb_eq in C1. apply qeqb_eq in C2. apply qeqb_neq in E. congruence.
Qed.
Lemma jaccard_value disc a b : qr (jaccard (map (fun i => nth i a 0) disc) (map (fun i => nth i b 0) disc)) = (INR (differ disc a b) / INR (Nat.max 1 (present disc a b)))%R.
Proof.
  unfold jaccard. rewrite zip_maps, !countb_map. cbn [fst snd].
  change (countb (fun x => negb (qeqb (nth x a 0) 0 && qeqb (nth x b 0) 0)) disc) with (present disc a b).
  change (countb (fun x => negb (qeqb (nth x a 0) (nth x b 0))) disc) with (differ disc a b). pose proof (differ_present disc a b) as D.
  destruct (Nat.eqb_spec (present disc a b) 0) as [Z|Z].
  - rewrite Z in *. assert (differ disc a b = 0)%nat as -> by lia. rewrite qr_0. cbn. lra.
  - rewrite qr_div by (apply not_eq_sym, Qclt_not_eq, qn_pos; lia). rewrite !qr_qn. replace (Nat.max 1 (present disc a b)) with (present disc a b) by lia. reflexivity.
Qed.
Definition indexes_ok (w : nat) (idx : list nat) : Prop := forall i, In i idx -> (i < w)%nat.
Lemma mixed_ok cont disc w a b : (0 < w)%nat -> indexes_ok w cont -> indexes_ok w disc -> List.length a = w -> List.length b = w ->
  mixed_metric cont disc a b = Ok (mixed_value cont disc w a b).
Proof.
  intros P C D La Lb. unfold mixed_metric. rewrite !pick_ok by (intros i I; rewrite ?La, ?Lb; auto). cbn [bind]. rewrite Lb.
  destruct (Nat.eqb_spec w 0); [lia|]. apply (f_equal (@Ok _)). unfold mixed_value. rewrite jaccard_value.
  rewrite !qr_div by (apply not_eq_sym, Qclt_not_eq, qn_pos; lia). rewrite !qr_qn. unfold euclidean. rewrite qr_qsum, map2_maps, map_map.
  f_equal. f_equal. f_equal. unfold rsum. f_equal. apply map_ext. intro i. rewrite qr_mult, !qr_minus. reflexivity.
Qed.
Lemma ratio_pos n w : (0 < n)%nat -> (0 < w)%nat -> (0 < INR n / INR w)%R.
Proof. intros. apply Rdiv_lt_0_compat; apply lt_0_INR; assumption. Qed.
Lemma ratio_nonneg n w : (0 < w)%nat -> (0 <= INR n / INR w)%R.
Proof. intros. destruct n; [cbn; unfold Rdiv; lra|]. apply Rlt_le, ratio_pos; lia. Qed.
Lemma sum_sq_nonneg A (f : A -> R) l : (0 <= fold_right Rplus 0 (map (fun i => f i * f i) l))%R.
Proof. induction l as [|x l IH]; cbn; [lra|]. pose proof (Rle_0_sqr (f x)) as S. unfold Rsqr in S. lra. Qed.
Lemma sum_sq_zero A (f : A -> R) l : (fold_right Rplus 0 (map (fun i => f i * f i) l) = 0 -> forall x, In x l -> f x = 0)%R.
Proof.
  induction l as [|y l IH]; intros H x I; [destruct I|]. cbn in H. pose proof (sum_sq_nonneg f l) as N. pose proof (Rle_0_sqr (f y)) as S. unfold Rsqr in S.
  destruct I as [<-|I]; [|apply IH; [lra|assumption]]. assert (Q : (f y * f y = 0)%R) by lra. apply Rmult_integral in Q. tauto.
Qed.
Lemma mixed_nonneg cont disc w a b : (0 < w)%nat -> (0 <= mixed_value cont disc w a b)%R.
Proof.
  intro P. unfold mixed_value. apply Rplus_le_le_0_compat; apply Rmult_le_pos; try (apply ratio_nonneg; lia). apply sqrt_pos.
Qed.
Lemma mixed_zero cont disc w a b : (0 < w)%nat ->
  (mixed_value cont disc w a b = 0%R <-> forall i, In i cont \/ In i disc -> nth i a 0 = nth i b 0).
Proof.
  intro P. unfold mixed_value.
  remember (fold_right Rplus 0%R (map (fun i => ((qr (nth i a 0%Qc) - qr (nth i b 0%Qc)) * (qr (nth i a 0%Qc) - qr (nth i b 0%Qc)))%R) cont)) as e eqn:Ee.
  assert (Ne : (0 <= e)%R). { rewrite Ee. apply (@sum_sq_nonneg nat (fun i => (qr (nth i a 0%Qc) - qr (nth i b 0%Qc))%R)). }
  pose proof (sqrt_pos e) as Sp.
  pose proof (@ratio_nonneg (List.length cont) w P) as R1. pose proof (@ratio_nonneg (List.length disc) w P) as R2.
  pose proof (@ratio_nonneg (differ disc a b) (Nat.max 1 (present disc a b)) ltac:(lia)) as R3.
  split.
  - intro H. assert (H1 : (INR (List.length cont) / INR w * sqrt e = 0)%R). { pose proof (Rmult_le_pos _ _ R1 Sp). pose proof (Rmult_le_pos _ _ R2 R3). lra. }
    assert (H2 : (INR (List.length disc) / INR w * (INR (differ disc a b) / INR (Nat.max 1 (present disc a b))) = 0)%R). { pose proof (Rmult_le_pos _ _ R1 Sp). pose proof (Rmult_le_pos _ _ R2 R3). lra. }
    intros i [I|I].
    + apply Rmult_integral in H1. destruct H1 as [H1|H1]; [pose proof (@ratio_pos (List.length cont) w ltac:(destruct cont; [destruct I|cbn; lia]) P); lra|].
      apply sqrt_eq_0 in H1; [|assumption]. rewrite Ee in H1. apply (@sum_sq_zero nat (fun i => (qr (nth i a 0%Qc) - qr (nth i b 0%Qc))%R) cont) with (x := i) in H1; [|assumption]. apply qr_inj. lra.
    + apply Rmult_integral in H2. destruct H2 as [H2|H2]; [pose proof (@ratio_pos (List.length disc) w ltac:(destruct disc; [destruct I|cbn; lia]) P); lra|].
      destruct (Nat.eq_dec (differ disc a b) 0) as [Z|Z]; [|pose proof (@ratio_pos (differ disc a b) (Nat.max 1 (present disc a b)) ltac:(lia) ltac:(lia)); lra].
      unfold differ in Z. apply length_zero_iff_nil in Z. destruct (qeqb (nth i a 0) (nth i b 0)) eqn:E; [apply qeqb_eq; assumption|].
      exfalso. assert (F : In i (filter (fun i => negb (qeqb (nth i a 0) (nth i b 0))) disc)) by (apply filter_In; split; [assumption|rewrite E; reflexivity]). rewrite Z in F. destruct F.
  - intro H. assert (e = 0%R) as ->.
    { rewrite Ee. clear -H. induction cont as [|i l IH]; cbn; [reflexivity|]. rewrite IH by (intros j [J|J]; apply H; [left; right; assumption|right; assumption]).
      rewrite (H i) by (left; left; reflexivity). lra. }
    assert (differ disc a b = 0)%nat as ->.
    { unfold differ. apply length_zero_iff_nil. destruct (filter _ disc) as [|i l] eqn:F; [reflexivity|]. exfalso.
      assert (I : In i (i :: l)) by (left; reflexivity). rewrite <- F in I. apply filter_In in I. destruct I as (I & N). rewrite (H i (or_intror I)), qeqb_refl in N. discriminate. }
    rewrite sqrt_0. cbn [INR]. unfold Rdiv. ring.
Qed.
Lemma mixed_sym cont disc w a b : mixed_value cont disc w a b = mixed_value cont disc w b a.
Proof.
  unfold mixed_value. f_equal; f_equal.
  - f_equal. f_equal. apply map_ext. intro i. lra.
  - replace (differ disc b a) with (differ disc a b). 2: { unfold differ. f_equal. apply filter_ext. intro i. f_equal. apply Bool.eq_iff_eq_true. rewrite !qeqb_eq. split; congruence. }
    replace (present disc b a) with (present disc a b). 2: { unfold present. f_equal. apply filter_ext. intro i. f_equal. apply Bool.andb_comm. }
    reflexivity.
Qed.
Lemma closest_mixed_spec cont disc w inst rows : (0 < w)%nat -> indexes_ok w cont -> indexes_ok w disc -> List.length inst = w -> matrix w rows ->
  exists c, closest_mixed cont disc inst rows = Ok c /\
    ((c = [] /\ forall r, In r rows -> mixed_value cont disc w inst r = 0%R) \/ nearest (mixed_value cont disc w) inst rows c).
Proof.
  intros P C D L M. unfold closest_mixed.
  remember (fun (best : list Qc * option R) row => do d <- mixed_metric cont disc inst row; if match snd best with None => true | Some m => Rltb d m end && Rltb 0 d then Ok (row, Some d) else Ok best) as stp eqn:Es.
  remember (mixed_value cont disc w inst) as f eqn:Ef.
  assert (G : forall l done best, matrix w l ->
    (match snd best with None => fst best = [] /\ forall r, In r done -> f r = 0%R | Some d => In (fst best) done /\ d = f (fst best) /\ (0 < d)%R /\ forall r, In r done -> (0 < f r)%R -> (d <= f r)%R end) ->
    exists best', foldM stp best l = Ok best' /\
    (match snd best' with None => fst best' = [] /\ forall r, In r (done ++ l) -> f r = 0%R | Some d => In (fst best') (done ++ l) /\ d = f (fst best') /\ (0 < d)%R /\ forall r, In r (done ++ l) -> (0 < f r)%R -> (d <= f r)%R end)).
  { induction l as [|r l IH]; intros done best Ml B. { exists best. rewrite app_nil_r. split; [reflexivity|assumption]. }
    cbn [foldM]. assert (St : stp best r = Ok (if match snd best with None => true | Some m => Rltb (f r) m end && Rltb 0 (f r) then (r, Some (f r)) else best)).
    { rewrite Es, (@mixed_ok cont disc w inst r P C D L (Ml r (or_introl eq_refl))). rewrite <- Ef. cbn [bind]. destruct (_ && _); reflexivity. }
    rewrite St. cbn [bind]. destruct (IH (done ++ [r]) (if match snd best with None => true | Some m => Rltb (f r) m end && Rltb 0 (f r) then (r, Some (f r)) else best)) as (b' & E & B').
    - intros x I. apply Ml. right. assumption.
    - pose proof (@mixed_nonneg cont disc w inst r P) as N. rewrite <- Ef in N. destruct best as (row0 & [d|]); cbn [fst snd] in *.
      + destruct B as (I & Ed & Pd & Mn). unfold Rltb. destruct (Rlt_dec (f r) d) as [Lt|Ge]; cbn [andb].
        * destruct (Rlt_dec 0 (f r)) as [Pr|Nr]; cbn [fst snd].
          -- split; [apply in_or_app; right; left; reflexivity|]. split; [reflexivity|]. split; [assumption|]. intros x I' Px. apply in_app_or in I'. destruct I' as [I'|[<-|[]]]; [|lra]. specialize (Mn x I' Px). lra.
          -- split; [apply in_or_app; left; assumption|]. split; [assumption|]. split; [assumption|]. intros x I' Px. apply in_app_or in I'. destruct I' as [I'|[<-|[]]]; [auto|lra].
        * cbn [fst snd]. split; [apply in_or_app; left; assumption|]. split; [assumption|]. split; [assumption|]. intros x I' Px. apply in_app_or in I'. destruct I' as [I'|[<-|[]]]; [auto|lra].
      + destruct B as (-> & Z). unfold Rltb. cbn [andb]. destruct (Rlt_dec 0 (f r)) as [Pr|Nr]; cbn [fst snd].
        * split; [apply in_or_app; right; left; reflexivity|]. split; [reflexivity|]. split; [assumption|]. intros x I' Px. apply in_app_or in I'. destruct I' as [I'|[<-|[]]]; [rewrite (Z x I') in Px|]; lra.
        * split; [reflexivity|]. intros x I'. apply in_app_or in I'. destruct I' as [I'|[<-|[]]]; [auto|lra].
    - exists b'. split; [assumption|]. rewrite <- app_assoc in B'. exact B'. }
  destruct (G rows [] ([], None) M) as (b & E & B). { cbn. split; [reflexivity|intros r []]. }
  rewrite E. cbn [bind]. exists (fst b). split; [reflexivity|]. destruct b as (c & [d|]); cbn [fst snd app] in *.
  - right. destruct B as (I & -> & Pd & Mn). unfold nearest. rewrite <- Ef. auto.
  - left. exact B.
Qed.
