(** * The whole genetic algorithm; oversampling *)
From Verif Require Import Prelude M_Genetic S_Genetic P_Genetic.
Set Implicit Arguments.
Open Scope Qc_scope.

Section Run.
  Context {A : Type}.
  Variables (fitness : list A -> Qc) (init : list (list A)) (fv : generators (A := A)).
  Notation D := (descends init fv).
  Lemma descends_crossover coin a b prob fs : D a -> D b -> uniform_crossover coin a b prob = Ok fs -> D (fst fs) /\ D (snd fs).
  Proof.
    intros Da Db H. destruct fs as (nf & ns). apply crossover_spec in H. destruct H as (_ & _ & N). cbn [fst snd]. split; intros j x Hx; destruct (N j) as (N1 & N2); cbv zeta in N1, N2.
    - rewrite N1 in Hx. destruct (_ && _); auto.
    - rewrite N2 in Hx. destruct (_ && _); auto.
  Qed.
  Lemma descends_informed coin seed a prob r : D a -> informed_init coin seed fv a prob = Ok r -> D r.
  Proof. intros Da H. apply informed_weak in H. destruct H as (_ & N). intros j x Hx. destruct (N j x Hx) as [E|(g & s & I & E)]; [auto|]. right. eauto. Qed.
  Lemma crossover_phase_spec d cx cr pop pop' : (forall i, In i pop -> D i) -> crossover_phase d cx cr pop = Ok pop' -> List.length pop' = List.length pop /\ forall i, In i pop' -> D i.
  Proof.
    intros Dp H. unfold crossover_phase in H.
    apply (@foldM_inv _ _ (fun p => List.length p = List.length pop /\ forall i, In i p -> D i)) in H; [assumption| |auto].
    intros p i p' _ (L & Dq) E. destruct (qltb _ cr); [|injection E as <-; auto]. unfold lget in E.
    destruct (nth_error p i) as [a|] eqn:Ea; [|discriminate]. cbn [ret_opt bind] in E. destruct (nth_error p (S i)) as [b|] eqn:Eb; [|discriminate]. cbn [ret_opt bind] in E.
    destruct (uniform_crossover _ a b cx) as [fs|] eqn:U; [|discriminate]. cbn [bind] in E. destruct (lset p i (fst fs)) as [p1|] eqn:L1; [|discriminate]. cbn [bind] in E.
    destruct (@descends_crossover (d_swap d i) a b cx fs (Dq _ (nth_error_In _ _ Ea)) (Dq _ (nth_error_In _ _ Eb)) U) as (D1 & D2). split.
    - apply lset_spec in L1. apply lset_spec in E. lia.
    - intros z I. destruct (@lset_In _ _ _ _ _ _ E I) as [->|I1]; [assumption|]. destruct (@lset_In _ _ _ _ _ _ L1 I1) as [->|I2]; auto.
  Qed.
  Lemma mutation_phase_spec d mp me pop pop' : (forall i, In i pop -> D i) -> mutation_phase d mp me fv pop = Ok pop' -> List.length pop' = List.length pop /\ forall i, In i pop' -> D i.
  Proof.
    intros Dp H. unfold mutation_phase in H.
    apply (@foldM_inv _ _ (fun p => List.length p = List.length pop /\ forall i, In i p -> D i)) in H; [assumption| |auto].
    intros p i p' _ (L & Dq) E. destruct (qltb _ me); [|injection E as <-; auto]. unfold lget in E.
    destruct (nth_error p i) as [a|] eqn:Ea; [|discriminate]. cbn [ret_opt bind] in E. destruct (informed_init _ _ fv a mp) as [m|] eqn:M; [|discriminate]. cbn [bind] in E. split.
    - apply lset_spec in E. lia.
    - intros z I. destruct (@lset_In _ _ _ _ _ _ E I) as [->|I1]; [|auto]. exact (@descends_informed (d_gene d i) (d_value d i) a mp m (Dq _ (nth_error_In _ _ Ea)) M).
  Qed.
  Lemma ga_spec rnd cx cr mp me k rounds res : genetic_algorithm fitness rnd init cx cr mp me fv k rounds = Ok res ->
    List.length res = List.length init /\ (forall v, (at_least fitness v init <= at_least fitness v res)%nat) /\ (forall i, In i res -> D i) /\
    ((0 < rounds)%nat -> StronglySorted (fun a b => fitness b <= fitness a) res).
  Proof.
    intro H. unfold genetic_algorithm in H.
    pose (Inv := fun m (p : list (list A)) => List.length p = List.length init /\ (forall v, (at_least fitness v init <= at_least fitness v p)%nat) /\ (forall i, In i p -> D i) /\
      ((0 < m)%nat -> StronglySorted (fun a b => fitness b <= fitness a) p)).
    assert (Q : Inv (0 + rounds)%nat res).
    { match type of H with foldM ?f ?a ?b = _ => apply (@foldM_seq _ Inv f rounds 0 a res) in H; [exact H| |] end.
      - intros i p p' _ (L & C & Dp & _) E.
        destruct (tournament_selection fitness _ p k) as [sel|] eqn:E1; [|discriminate]. cbn [bind] in E. destruct (crossover_phase _ _ _ sel) as [crd|] eqn:E2; [|discriminate]. cbn [bind] in E.
        destruct (mutation_phase _ _ _ _ crd) as [mut|] eqn:E3; [|discriminate]. cbn [bind] in E. injection E as <-.
        destruct (@tournament_spec _ fitness _ _ _ _ E1) as (L1 & S1). assert (D1 : forall i, In i sel -> D i). { intros z I. apply In_nth_error in I. destruct I as (n & Hn). apply Dp. apply (S1 _ _ Hn). }
        destruct (@crossover_phase_spec _ _ _ _ _ D1 E2) as (L2 & D2). destruct (@mutation_phase_spec _ _ _ _ _ D2 E3) as (L3 & D3).
        destruct (replacement_spec fitness p mut) as (rest & (P & S & _) & Lr). split; [congruence|]. split; [|split; [|auto]].
        + intro v. specialize (C v). pose proof (replacement_better fitness p mut v). lia.
        + intros z I. assert (I' : In z (p ++ mut)). { apply (Permutation_in _ (Permutation_sym P)). apply in_or_app. left. assumption. } apply in_app_or in I'. destruct I'; auto.
      - split; [reflexivity|]. split; [auto|]. split; [|lia]. intros i I j x Hx. left. eauto. }
    exact Q.
  Qed.
  (** success *)
  Variable n : nat.
  Notation wide pop := (forall i : list A, In i pop -> List.length i = n).
  Lemma crossover_phase_total d cx cr pop : wide pop -> exists pop', crossover_phase d cx cr pop = Ok pop' /\ wide pop'.
  Proof.
    intro W. unfold crossover_phase.
    match goal with |- exists p', foldM ?f ?a ?b = _ /\ _ => destruct (@foldM_total _ _ (fun p : list (list A) => List.length p = List.length pop /\ wide p) f b a) as (p' & E & _ & W'); [| |eauto] end.
    - intros p i I (L & W'). apply in_seq in I. destruct (qltb _ cr); [|eauto]. unfold lget.
      destruct (nth_error p i) as [a|] eqn:Ea; [|apply nth_error_None in Ea; lia]. cbn [ret_opt bind]. destruct (nth_error p (S i)) as [b|] eqn:Eb; [|apply nth_error_None in Eb; lia]. cbn [ret_opt bind].
      pose proof (W' _ (nth_error_In _ _ Ea)). pose proof (W' _ (nth_error_In _ _ Eb)).
      destruct (@crossover_total _ (d_swap d i) a b cx ltac:(congruence)) as ((nf & ns) & U). rewrite U. cbn [bind fst snd]. destruct (@crossover_spec _ _ _ _ _ _ _ U) as (L1 & L2 & _).
      destruct (@lset_total _ p i nf ltac:(lia)) as (p1 & E1). rewrite E1. cbn [bind]. pose proof (@lset_spec _ _ _ _ _ E1) as (_ & Lp & _).
      destruct (@lset_total _ p1 (S i) ns ltac:(lia)) as (p2 & E2). exists p2. split; [assumption|]. pose proof (@lset_spec _ _ _ _ _ E2) as (_ & Lp2 & _). split; [congruence|].
      intros z Iz. destruct (@lset_In _ _ _ _ _ _ E2 Iz) as [->|I1]; [congruence|]. destruct (@lset_In _ _ _ _ _ _ E1 I1) as [->|I2]; [congruence|auto].
    - split; [reflexivity|assumption].
  Qed.
  Lemma mutation_phase_total d mp me pop : wide pop -> (forall i, In i (dkeys fv) -> (i < n)%nat) -> exists pop', mutation_phase d mp me fv pop = Ok pop' /\ wide pop'.
  Proof.
    intros W K. unfold mutation_phase.
    match goal with |- exists p', foldM ?f ?a ?b = _ /\ _ => destruct (@foldM_total _ _ (fun p : list (list A) => List.length p = List.length pop /\ wide p) f b a) as (p' & E & _ & W'); [| |eauto] end.
    - intros p i I (L & W'). apply in_seq in I. destruct (qltb _ me); [|eauto]. unfold lget.
      destruct (nth_error p i) as [a|] eqn:Ea; [|apply nth_error_None in Ea; lia]. cbn [ret_opt bind]. pose proof (W' _ (nth_error_In _ _ Ea)) as La.
      destruct (@informed_total _ (d_gene d i) (d_value d i) fv a mp) as (m & M). { intros j Ij. rewrite La. auto. } rewrite M. cbn [bind]. destruct (@informed_weak _ _ _ _ _ _ _ M) as (Lm & _).
      destruct (@lset_total _ p i m ltac:(lia)) as (p1 & E1). exists p1. split; [assumption|]. pose proof (@lset_spec _ _ _ _ _ E1) as (_ & Lp & _). split; [congruence|].
      intros z Iz. destruct (@lset_In _ _ _ _ _ _ E1 Iz) as [->|I1]; [congruence|auto].
    - split; [reflexivity|assumption].
  Qed.
  Lemma ga_total rnd cx cr mp me k rounds : wide init -> (forall i, In i (dkeys fv) -> (i < n)%nat) -> (0 < k)%nat ->
    exists res, genetic_algorithm fitness rnd init cx cr mp me fv k rounds = Ok res /\ wide res.
  Proof.
    intros W K Kp. unfold genetic_algorithm. apply (@foldM_total _ _ (fun p => wide p)); [|assumption].
    intros p i _ Wp. destruct (@tournament_total _ fitness (d_pick (rnd i)) p k Kp) as (sel & E1). rewrite E1. cbn [bind]. destruct (@tournament_spec _ fitness _ _ _ _ E1) as (L1 & S1).
    assert (W1 : wide sel). { intros z I. apply In_nth_error in I. destruct I as (j & Hj). apply Wp. apply (S1 _ _ Hj). }
    destruct (@crossover_phase_total (rnd i) cx cr sel W1) as (crd & E2 & W2). rewrite E2. cbn [bind]. destruct (@mutation_phase_total (rnd i) mp me crd W2 K) as (mut & E3 & W3). rewrite E3. cbn [bind].
    eexists. split; [reflexivity|]. intros z I. destruct (replacement_spec fitness p mut) as (rest & (P & _) & _).
    assert (I' : In z (p ++ mut)). { apply (Permutation_in _ (Permutation_sym P)). apply in_or_app. left. assumption. } apply in_app_or in I'. destruct I'; auto.
  Qed.
End Run.

(** without mutation the generators play no role *)
Lemma ga_no_mutation A (fitness : list A -> Qc) rnd init cx cr mp me fv k rounds :
  (forall r i, me <= d_mutate (rnd r) i) -> genetic_algorithm fitness rnd init cx cr mp me fv k rounds = genetic_algorithm fitness rnd init cx cr mp me [] k rounds.
Proof.
  intro H. unfold genetic_algorithm. remember (seq 0 rounds) as l. clear Heql. revert init. induction l as [|r l IH]; intro init; cbn [foldM]; [reflexivity|].
  destruct (tournament_selection fitness (d_pick (rnd r)) init k) as [sel|]; cbn [bind]; [|reflexivity]. destruct (crossover_phase (rnd r) cx cr sel) as [crd|]; cbn [bind]; [|reflexivity].
  assert (M : forall g, mutation_phase (rnd r) mp me g crd = Ok crd).
  { intro g. unfold mutation_phase. remember (seq 0 (List.length crd)) as l2. clear Heql2. induction l2 as [|i l2 IH2]; cbn [foldM]; [reflexivity|]. destruct (qltb_spec (d_mutate (rnd r) i) me) as [L|_]; [exfalso; specialize (H r i); qlra|]. cbn [bind]. assumption. }
  rewrite !M. cbn [bind]. apply IH.
Qed.

(** oversampling *)
Lemma diffs_nth l : forall i d, nth_error (diffs l) i = Some d <-> exists x y, nth_error l i = Some x /\ nth_error l (S i) = Some y /\ d = y - x.
Proof.
  induction l as [|x l IH]; intros i d. { cbn. split; [destruct i; discriminate|]. intros (a & b & E & _). destruct i; discriminate. }
  destruct l as [|y l]. { cbn. split; [destruct i; discriminate|]. intros (a & b & _ & E & _). destruct i; discriminate. }
  change (diffs (x :: y :: l)) with ((y - x) :: diffs (y :: l)). destruct i as [|i].
  - cbn. split; [intro E; injection E as <-; eauto|]. intros (a & b & Ea & Eb & ->). congruence.
  - cbn [nth_error]. rewrite IH. reflexivity.
Qed.
Lemma diffs_nil l : diffs l = [] <-> (List.length l < 2)%nat.
Proof. destruct l as [|x [|y l]]; cbn; split; intro H; try lia; auto; discriminate. Qed.
Lemma last_index_spec m l : In m l -> exists i, last_index m l = Ok i /\ nth_error l i = Some m /\ forall j, nth_error l j = Some m -> (j <= i)%nat.
Proof.
  intro I. unfold last_index. remember (map fst (filter (fun ix => qeqb (snd ix) m) (combine (seq 0 (List.length l)) l))) as js eqn:E.
  assert (J : forall j, In j js <-> nth_error l j = Some m).
  { intro j. rewrite E, in_map_iff. assert (C : forall k x (l : list Qc) a, In (k, x) (combine (seq a (List.length l)) l) <-> (a <= k)%nat /\ nth_error l (k - a) = Some x).
    { clear. intros k x l. induction l as [|y l IH]; intro a; cbn [List.length seq combine In]. { split; [intros []|]. intros (_ & H). destruct (k - a)%nat; discriminate. }
      rewrite IH. split.
      - intros [H|(L & H)]; [injection H as <- <-; rewrite Nat.sub_diag; auto|]. split; [lia|]. replace (k - a)%nat with (S (k - S a)) by lia. assumption.
      - intros (L & H). destruct (Nat.eq_dec k a) as [->|D]; [rewrite Nat.sub_diag in H; cbn in H; left; congruence|]. right. split; [lia|]. replace (k - a)%nat with (S (k - S a)) in H by lia. assumption. }
    split.
    - intros ((k & x) & <- & H). apply filter_In in H. destruct H as (H & Q). cbn [snd] in Q. apply qeqb_eq in Q. subst x. apply C in H. rewrite Nat.sub_0_r in H. apply H.
    - intro H. exists (j, m). split; [reflexivity|]. apply filter_In. split; [|apply qeqb_refl]. apply C. rewrite Nat.sub_0_r. split; [lia|assumption]. }
  assert (N : js <> []). { apply In_nth_error in I. destruct I as (j & Hj). apply J in Hj. intro C. rewrite C in Hj. destruct Hj. }
  assert (Mx : forall js0 b, exists i, max_by_aux Nat.ltb b js0 = i /\ In i (b :: js0) /\ forall j, In j (b :: js0) -> (j <= i)%nat).
  { clear. induction js0 as [|x l IH]; intro b; cbn [max_by_aux]. { exists b. split; [reflexivity|]. split; [left; reflexivity|]. intros j [<-|[]]. lia. }
    destruct (IH (if Nat.ltb b x then x else b)) as (i & E & I & M). exists i. split; [assumption|]. destruct (Nat.ltb_spec b x) as [L|L].
    - split; [right; assumption|]. intros j [<-|Ij]; [pose proof (M x (or_introl eq_refl)); lia|auto].
    - split; [destruct I as [<-|I]; [left; reflexivity|right; right; assumption]|]. intros j [<-|[<-|Ij]]; [apply M; left; reflexivity|pose proof (M b (or_introl eq_refl)); lia|apply M; right; assumption]. }
  destruct js as [|b js0]; [congruence|]. cbn [max_by]. destruct (Mx js0 b) as (i & Ei & Ii & Mi). exists i. rewrite Ei. split; [reflexivity|]. split; [apply J; assumption|]. intros j Hj. apply Mi. apply J. assumption.
Qed.
Lemma sorted_nth l : StronglySorted Qcle l -> forall i j x y, (i <= j)%nat -> nth_error l i = Some x -> nth_error l j = Some y -> x <= y.
Proof.
  induction 1 as [|a l S IH F]; intros i j x y L Hi Hj; [destruct i; discriminate|]. destruct i as [|i]; destruct j as [|j]; cbn in *; try lia.
  - injection Hi as <-. injection Hj as <-. apply Qcle_refl.
  - injection Hi as <-. rewrite Forall_forall in F. apply F. exact (nth_error_In _ _ Hj).
  - apply (IH i j); [lia|assumption|assumption].
Qed.
(** neighbouring values are at successive positions of the sorted list *)
Lemma neighbours_nth l T T' : StronglySorted Qcle l -> neighbours l T T' -> exists p, nth_error l p = Some T /\ nth_error l (S p) = Some T'.
Proof.
  intros S (I & I' & Lt & B). revert T T' I I' Lt B. induction S as [|a l S IH F]; intros T T' I I' Lt B; [destruct I|].
  rewrite Forall_forall in F. destruct l as [|b l]. { destruct I as [<-|[]]; destruct I' as [<-|[]]. exfalso. qlra. }
  destruct (Qc_eq_dec T b) as [->|Nb].
  - (* T = b: look in the tail *)
    destruct (IH b T') as (p & E1 & E2); [left; reflexivity| |assumption|intros v Iv; apply B; right; assumption|exists (Datatypes.S p); auto].
    destruct I' as [<-|I']; [|assumption]. exfalso. pose proof (F b (or_introl eq_refl)). qlra.
  - destruct I as [<-|I].
    + destruct (B b (or_intror (or_introl eq_refl))) as [L|L].
      * exfalso. pose proof (F b (or_introl eq_refl)). apply Nb. apply Qcle_antisym; assumption.
      * exists 0%nat. cbn. split; [reflexivity|]. f_equal. apply Qcle_antisym; [|assumption]. destruct I' as [->|I']; [exfalso; qlra|]. destruct I' as [->|I']; [apply Qcle_refl|]. inversion S as [|? ? S' F']; subst. rewrite Forall_forall in F'. auto.
    + destruct (IH T T') as (p & E1 & E2); [assumption| |assumption|intros v Iv; apply B; right; assumption|exists (Datatypes.S p); auto].
      destruct I' as [<-|I']; [|assumption]. exfalso. pose proof (F T I). qlra.
Qed.
Lemma neighbours_of_nth l p T T' : StronglySorted Qcle l -> nth_error l p = Some T -> nth_error l (S p) = Some T' -> T < T' -> neighbours l T T'.
Proof.
  intros S E1 E2 L. unfold neighbours. split; [exact (nth_error_In _ _ E1)|]. split; [exact (nth_error_In _ _ E2)|]. split; [assumption|].
  intros v I. apply In_nth_error in I. destruct I as (q & Eq). destruct (Nat.le_gt_cases q p); [left; apply (@sorted_nth l S q p); assumption|right; apply (@sorted_nth l S (Datatypes.S p) q); [lia|assumption|assumption]].
Qed.
Lemma oversample_spec A (pop hof : list (A * Qc)) : (2 <= List.length pop)%nat ->
  exists T, get_oversample pop hof = Ok (map fst (filter (fun p => qltb T (snd p)) pop) ++ map fst (filter (fun p => qltb T (snd p)) hof)) /\
    ((exists p q, In p pop /\ In q pop /\ snd p <> snd q) -> below_widest_gap (map snd pop) T) /\
    ((forall p q, In p pop -> In q pop -> snd p = snd q) -> forall p, In p pop -> snd p = T).
Proof.
  intro L. unfold get_oversample. cbv zeta. remember (sort_asc (fun q : Qc => q) (map snd pop)) as s eqn:Es.
  assert (P : forall v, In v s <-> In v (map snd pop)). { intro v. rewrite Es. apply sort_by_In. }
  assert (S : StronglySorted Qcle s). { rewrite Es. apply (@sort_asc_sorted Qc (fun q => q)). }
  assert (Ls : List.length s = List.length pop). { rewrite Es. unfold sort_asc. rewrite sort_by_length, map_length. reflexivity. }
  assert (Nd : diffs s <> []). { rewrite diffs_nil. lia. }
  destruct (qmaximum_ok Nd) as (m & M). rewrite M. cbn [bind]. apply qmaximum_spec in M. destruct M as (Im & Mx).
  destruct (@last_index_spec _ _ Im) as (i & -> & Ei & Li). cbn [bind]. apply diffs_nth in Ei. destruct Ei as (T & T' & E1 & E2 & Em). rewrite E1. cbn [ret_opt bind]. exists T. split; [reflexivity|]. split.
  - intros (p & q & Ip & Iq & D).
    assert (Pos : 0 < m).
    { destruct (Qclt_le_dec 0 m) as [|Ge]; [assumption|]. exfalso. apply D.
      assert (Z : forall k x y, nth_error s k = Some x -> nth_error s (Datatypes.S k) = Some y -> x = y).
      { intros k x y Ex Ey. pose proof (@sorted_nth s S k (Datatypes.S k) x y ltac:(lia) Ex Ey). assert (Id : In (y - x) (diffs s)). { apply (@nth_error_In _ _ k). apply diffs_nth. eauto. } apply Mx in Id. qlra. }
      assert (Al : forall k x, nth_error s k = Some x -> nth_error s 0 = Some x).
      { induction k as [|k IH]; intros x Ex; [assumption|]. destruct (nth_error s k) as [y|] eqn:Ey; [|apply nth_error_None in Ey; assert (nth_error s (Datatypes.S k) = None) by (apply nth_error_None; lia); congruence].
        rewrite <- (Z k y x Ey Ex). apply IH. reflexivity. }
      assert (Hp : In (snd p) s) by (apply P, in_map; assumption). assert (Hq : In (snd q) s) by (apply P, in_map; assumption).
      apply In_nth_error in Hp. apply In_nth_error in Hq. destruct Hp as (kp & Hp). destruct Hq as (kq & Hq). apply Al in Hp. apply Al in Hq. congruence. }
    assert (Nb : forall a b, neighbours (map snd pop) a b <-> neighbours s a b). { intros a b. unfold neighbours. rewrite !P. split; intros (H1 & H2 & H3 & H4); (split; [assumption|]; split; [assumption|]; split; [assumption|]; intros v Iv; apply H4; apply P; assumption). }
    exists T'. split. { apply Nb. apply (@neighbours_of_nth s i); auto. qlra. }
    intros a b H. apply Nb in H. destruct (@neighbours_nth s a b S H) as (k & Ea & Eb). assert (Ed : nth_error (diffs s) k = Some (b - a)) by (apply diffs_nth; eauto).
    pose proof (Mx _ (nth_error_In _ _ Ed)) as Le. rewrite Em in Le. split; [assumption|]. intro Eq. rewrite Eq, <- Em in Ed. apply Li in Ed. exact (@sorted_nth s S k i a T Ed Ea E1).
  - intros Al p Ip. assert (HT : In T s) by exact (nth_error_In _ _ E1). apply P in HT. apply in_map_iff in HT. destruct HT as (q & <- & Iq). auto.
Qed.
Lemma oversample_small A (pop hof : list (A * Qc)) : (List.length pop < 2)%nat -> get_oversample pop hof = Err ValueError.
Proof.
  intro L. unfold get_oversample. cbv zeta. assert (diffs (sort_asc (fun q : Qc => q) (map snd pop)) = []) as ->; [|reflexivity]. apply diffs_nil. unfold sort_asc. rewrite sort_by_length, map_length. assumption.
Qed.
