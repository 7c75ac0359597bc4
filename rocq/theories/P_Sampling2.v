(** * When sampling succeeds and when it fails *)
From Verif Require Import Prelude M_Fuzzy M_Discretize M_Rule M_FDT M_Neighborhood P_FuzzySet P_FuzzyVar P_Entropy P_Metrics P_Counterfactual M_Sampling S_Sampling P_Sampling.
From Coq Require Import Reals Lra.
Set Implicit Arguments.
Open Scope Qc_scope.

Lemma in_range_valid nr col : col <> [] -> (exists f, in_range nr col = Ok f) <-> valid_range nr.
Proof.
  intro N. destruct nr as [|q|]; cbn.
  - split; [trivial|]. intros _. eexists. reflexivity.
  - destruct (qltb_spec 0 q); destruct (qltb_spec q 1); cbn; split; intro H1; try tauto; try (destruct H1; discriminate).
    + destruct (qmaximum_ok N) as (hi & ->). destruct (qminimum_ok N) as (lo & ->). cbn. eexists. reflexivity.
    + exfalso. destruct H1. qlra.
    + exfalso. destruct H1. qlra.
    + exfalso. destruct H1. qlra.
  - split; [intros (? & ?); discriminate|intros []].
Qed.
Lemma in_range_err nr col e : col <> [] -> in_range nr col = Err e -> e = ValueError.
Proof.
  intros N H. destruct nr as [|q|]; cbn in H; [discriminate| |congruence]. destruct (_ && _); [|congruence].
  destruct (qmaximum_ok N) as (hi & E1). destruct (qminimum_ok N) as (lo & E2). rewrite E1, E2 in H. discriminate.
Qed.
Lemma prob_dist_total nr w X centre cont : X <> [] -> List.length centre = w -> valid_range nr -> exists pd, prob_dist nr (transpose w X) centre cont = Ok pd.
Proof.
  intros NX L V. apply mapM_total. intros (i & col) I. apply In_nth_error in I. destruct I as (j & Hj). apply enumerate_nth_inv in Hj. cbn [fst snd] in Hj. destruct Hj as (-> & Hj).
  apply transpose_nth in Hj. destruct Hj as (Li & ->). assert (NC : col_of X j <> []). { unfold col_of. destruct X; [congruence|discriminate]. }
  destruct (memb j cont); [|eexists; reflexivity]. destruct (proj2 (in_range_valid nr NC) V) as (f & ->). cbn [bind].
  destruct (Nat.eqb_spec (List.length (col_of X j)) 0) as [Z|_]; [apply length_zero_iff_nil in Z; contradiction|].
  rewrite (nth_error_nth' centre 0) by lia. eexists. reflexivity.
Qed.
Lemma mapM_err_all A B (f : A -> res B) l e0 : (forall x e, In x l -> f x = Err e -> e = e0) -> forall e, mapM f l = Err e -> e = e0.
Proof.
  induction l as [|x l IH]; intros H e E; cbn in E; [discriminate|]. destruct (f x) as [y|e'] eqn:F; cbn in E.
  - destruct (mapM f l) as [ys|e'] eqn:G; cbn in E; [discriminate|]. injection E as ->. apply IH; [|reflexivity]. intros z e2 I. apply H. right. assumption.
  - injection E as ->. apply (H x); [left; reflexivity|assumption].
Qed.
Lemma prob_dist_bad_range nr w X centre cont i : X <> [] -> List.length centre = w -> ~ valid_range nr -> In i cont -> (i < w)%nat ->
  prob_dist nr (transpose w X) centre cont = Err ValueError.
Proof.
  intros NX L V I Li. assert (NC : forall j, col_of X j <> []). { intro j. unfold col_of. destruct X; [congruence|discriminate]. }
  destruct (prob_dist nr (transpose w X) centre cont) as [pd|e] eqn:E.
  - exfalso. unfold prob_dist in E. apply mapM_ok in E. assert (Hi : nth_error (transpose w X) i = Some (col_of X i)).
    { destruct (nth_error (transpose w X) i) as [c|] eqn:N; [apply transpose_nth in N; destruct N as (_ & ->); reflexivity|]. apply nth_error_None in N. rewrite transpose_length in N. lia. }
    destruct (Forall2_nth E _ (enumerate_nth _ _ Hi)) as (vp & _ & S). cbv beta iota in S. rewrite (proj2 (@memb_In _ _ i cont) I) in S.
    destruct (in_range nr (col_of X i)) as [f|] eqn:R; [|discriminate]. apply V. apply (in_range_valid nr (NC i)). eauto.
  - apply (f_equal (@Err _)). apply (@mapM_err_all _ _ _ _ ValueError) in E; [assumption|]. intros (j & col) e' Ij S. apply In_nth_error in Ij. destruct Ij as (k & Hk).
    apply enumerate_nth_inv in Hk. cbn [fst snd] in Hk. destruct Hk as (-> & Hk). apply transpose_nth in Hk. destruct Hk as (Lk & ->).
    destruct (memb k cont); [|discriminate]. destruct (in_range nr (col_of X k)) as [f|e2] eqn:R; cbn [bind] in S.
    + destruct (Nat.eqb _ 0); [discriminate|]. rewrite (nth_error_nth' centre 0) in S by lia. discriminate.
    + injection S as ->. exact (in_range_err _ (NC k) R).
Qed.
Lemma draw_err rnd t pd e : draw rnd t pd = Err e -> e = ValueError.
Proof. apply mapM_err_all. intros (i & vp) e' _. unfold choose. cbn. destruct (nth_error _ _); cbn; congruence. Qed.
Lemma draw_total rnd t nr w X centre cont pd : prob_dist nr (transpose w X) centre cont = Ok pd ->
  (forall i, (i < w)%nat -> exists x, admissible nr X cont centre i x) -> exists row, draw rnd t pd = Ok row.
Proof.
  intros H A. destruct (prob_dist_spec _ _ _ _ _ H) as (L & S). apply mapM_total. intros (i & vp) I. apply In_nth_error in I. destruct I as (j & Hj).
  apply enumerate_nth_inv in Hj. cbn [fst snd] in *. destruct Hj as (-> & Hj). assert (Lj : (j < w)%nat). { rewrite <- L. apply nth_error_Some. congruence. }
  destruct (S j vp Hj) as (vals & -> & _ & V). destruct (A j Lj) as (x & Hx). apply V in Hx. unfold choose. cbn [fst weigh].
  destruct (nth_error vals (rnd (t + j) mod List.length vals)%nat) as [y|] eqn:N; [eexists; reflexivity|]. apply nth_error_None in N.
  pose proof (Nat.mod_upper_bound (rnd (t + j)%nat) (List.length vals)) as U. destruct vals; [destruct Hx|]. cbn [List.length] in *. specialize (U ltac:(discriminate)). lia.
Qed.
Lemma offer_total bb size K s drawn row : ginv bb size K s drawn -> (0 <= bb row < Z.of_nat K)%Z -> exists s', offer bb size s row = Ok s'.
Proof.
  intros (KS & _) R. destruct s as (rows & counts). cbn [fst snd] in KS. unfold offer. apply keys_range in R. rewrite <- KS in R. destruct (dget_ex _ _ R) as (n & ->).
  cbn [ret_opt bind]. destruct (qltb _ _); eexists; reflexivity.
Qed.
Lemma rounds_total rnd bb K size pd cpd : (forall t, exists row, draw rnd t pd = Ok row) -> (forall t, exists row, draw rnd t cpd = Ok row) ->
  (forall r, (0 <= bb r < Z.of_nat K)%Z) -> forall fuel tries s drawn e, ginv bb size K s drawn -> rounds rnd bb fuel size tries pd cpd s = Err e -> e = OutOfFuel.
Proof.
  intros DP DQ R. induction fuel as [|fuel IH]; intros tries s drawn e G H; cbn [rounds] in H.
  - destruct (Nat.ltb _ size); [congruence|discriminate].
  - destruct (Nat.ltb _ size); [|discriminate]. cbv zeta in H.
    destruct (DP (2 * tries * List.length pd)%nat) as (x & Ex). rewrite Ex in H. cbn [bind] in H.
    destruct (DQ (2 * tries * List.length pd + List.length pd)%nat) as (y & Ey). rewrite Ey in H. cbn [bind] in H.
    destruct (@offer_total bb size K s drawn x G (R x)) as (s1 & E1). rewrite E1 in H. cbn [bind] in H. pose proof (offer_inv _ G E1) as G1.
    destruct (@offer_total bb size K s1 (drawn ++ [x]) y G1 (R y)) as (s2 & E2). rewrite E2 in H. cbn [bind] in H. pose proof (offer_inv _ G1 E2) as G2.
    destruct (Nat.ltb (size * 100) (S tries)); [discriminate|]. exact (IH _ _ _ _ G2 H).
Qed.
Lemma ginv_init bb size K : ginv bb size K ([], map (fun i => (Z.of_nat i, 0%nat)) (seq 0 K)) [].
Proof.
  unfold ginv. cbn [fst snd]. split. { unfold dkeys. rewrite map_map. reflexivity. } split.
  { intros c n H. apply dget_In in H. apply in_map_iff in H. destruct H as (i & E & _). injection E as _ <-. reflexivity. }
  split; [constructor|]. split; [|intros r []]. intro c. unfold of_class. cbn. lia.
Qed.

(** a value is close to itself exactly if the column varies *)
Lemma varies_std X i : X <> [] -> varies X i <-> (0 < std_R (map qr (col_of X i)))%R.
Proof.
  intro NX. assert (NC : col_of X i <> []). { unfold col_of. destruct X; [congruence|discriminate]. } unfold varies. remember (col_of X i) as col eqn:Ec. clear Ec.
  destruct (variance col) as [v|] eqn:V; [|apply variance_none in V; contradiction]. rewrite <- (variance_R _ V).
  unfold variance in V. destruct (qmean col) as [m|] eqn:M; [|discriminate].
  assert (E : v = qsum (map (fun x => (x - m) * (x - m)) col) / qn (List.length col)).
  { destruct col as [|a0 col0]; [contradiction|]. remember (fun x : Qc => (x - m) * (x - m)) as g. cbn [map qmean] in V. rewrite <- (map_length g (a0 :: col0)). cbn [map]. congruence. }
  assert (LP : 0 < qn (List.length col)). { apply qn_pos. destruct col; [contradiction|cbn; lia]. }
  assert (Nn : Forall (fun x => 0 <= x) (map (fun x => (x - m) * (x - m)) col)). { apply Forall_forall. intros y I. apply in_map_iff in I. destruct I as (z & <- & _). apply sq_nonneg. }
  assert (S0 : qsum (map (fun x => (x - m) * (x - m)) col) = 0 -> forall x, In x col -> x = m).
  { intros Z x I. apply qsum_zero_all in Z; [|assumption]. rewrite Forall_forall in Z. specialize (Z ((x - m) * (x - m)) (in_map _ _ _ I)). apply Qcmult_integral in Z. destruct Z as [Z|Z]; qlra. }
  split.
  - intros (x & y & Ix & Iy & D). apply sqrt_lt_R0. rewrite <- qr_0. apply qr_lt. subst v. apply Qclt_div; [assumption|]. rewrite Qcmult_0_l.
    destruct (Qclt_le_dec 0 (qsum (map (fun x => (x - m) * (x - m)) col))) as [|Ge]; [assumption|]. exfalso. apply D.
    assert (Z : qsum (map (fun x => (x - m) * (x - m)) col) = 0) by (apply Qcle_antisym; [assumption|apply qsum_nonneg; assumption]).
    rewrite (S0 Z x Ix), (S0 Z y Iy). reflexivity.
  - intro P. destruct col as [|a col']; [contradiction|]. destruct (existsb (fun y => negb (qeqb y a)) col') eqn:X1.
    + apply existsb_exists in X1. destruct X1 as (y & Iy & Ny). exists a, y. split; [left; reflexivity|]. split; [right; assumption|]. intro C. subst. rewrite qeqb_refl in Ny. discriminate.
    + exfalso. assert (Al : forall y, In y (a :: col') -> y = a).
      { intros y [<-|I]; [reflexivity|]. destruct (qeqb y a) eqn:Q; [apply qeqb_eq; assumption|]. exfalso. assert (existsb (fun y => negb (qeqb y a)) col' = true); [|congruence].
        apply existsb_exists. exists y. split; [assumption|]. rewrite Q. reflexivity. }
      assert (Em : m = a). { assert (M' : m = qsum (a :: col') / qn (List.length (a :: col'))) by (cbn [qmean] in M; congruence). rewrite M'. apply Qcdiv_eq; [apply not_eq_sym, Qclt_not_eq; assumption|].
        transitivity (qn (List.length (a :: col')) * a); [|apply Qcmult_comm]. rewrite <- (qsum_const a (a :: col')). f_equal.
        rewrite <- (map_id (a :: col')) at 1. apply map_ext_in. intros y I. rewrite (Al y I). reflexivity. }
      assert (Z : qsum (map (fun x => (x - m) * (x - m)) (a :: col')) = 0). { apply qsum_map_zero. intros y I. rewrite (Al y I), Em. ring. }
      rewrite Z in E. assert (v = 0) as ->. { rewrite E. unfold Qcdiv. ring. } rewrite qr_0, sqrt_0 in P. lra.
Qed.
Lemma self_close nr X i x : valid_range nr -> In x (col_of X i) -> varies X i -> close nr (col_of X i) x x.
Proof.
  intros V I W. assert (NX : X <> []). { intro C. subst. destruct I. } destruct nr as [|q|]; cbn.
  - replace (qr x - qr x)%R with 0%R by lra. rewrite Rabs_R0. apply (varies_std i NX). assumption.
  - destruct V as (V0 & V1). split; [assumption|]. split; [assumption|]. assert (NC : col_of X i <> []) by (intro C; rewrite C in I; destruct I).
    destruct (qmaximum_ok NC) as (hi & Hi). destruct (qminimum_ok NC) as (lo & Lo). apply qmaximum_spec in Hi. apply qminimum_spec in Lo. destruct Hi as (Ih & Mh). destruct Lo as (Il & Ml).
    exists hi, lo. split; [assumption|]. split; [assumption|]. split; [auto|]. replace (x - x) with 0 by ring. change (qabs 0) with 0. apply Qcmult_pos; [assumption|].
    destruct W as (a & b & Ia & Ib & D). pose proof (Mh a Ia). pose proof (Mh b Ib). pose proof (Ml a Ia). pose proof (Ml b Ib). apply Qc_neq_lt in D. destruct D; qlra.
  - destruct V.
Qed.
Lemma never_close nr X i c x : X <> [] -> ~ varies X i -> ~ close nr (col_of X i) c x.
Proof.
  intros NX W C. destruct nr as [|q|]; cbn in C.
  - apply W. apply (varies_std i NX). pose proof (Rabs_pos (qr x - qr c)). lra.
  - destruct C as (_ & _ & hi & lo & Ih & Il & _ & A). apply W. exists hi, lo. split; [assumption|]. split; [assumption|]. intros ->. replace (lo - lo) with 0 in A by ring. rewrite Qcmult_0_r in A. pose proof (qabs_nonneg (x - c)). qlra.
  - destruct C.
Qed.
Lemma in_col X w r i : matrix w X -> In r X -> (i < w)%nat -> exists x, nth_error r i = Some x /\ In x (col_of X i).
Proof.
  intros M I L. exists (nth i r 0). split; [apply nth_error_nth'; rewrite (M r I); assumption|]. unfold col_of. apply in_map_iff. exists r. auto.
Qed.
Lemma self_admissible nr X w cont r i : matrix w X -> In r X -> valid_range nr -> (forall i, In i cont -> varies X i) -> (i < w)%nat -> exists x, admissible nr X cont r i x.
Proof.
  intros M I V W L. destruct (@in_col X w r i M I L) as (x & E & C). exists x. split; [assumption|]. intro Ic. exists x. split; [assumption|]. apply self_close; auto.
Qed.
