(** * Proofs about the genetic algorithm *)
From Verif Require Import Prelude M_Genetic S_Genetic.
Set Implicit Arguments.
Open Scope Qc_scope.

Lemma lset_spec A (l : list A) i x r : lset l i x = Ok r ->
  (i < List.length l)%nat /\ List.length r = List.length l /\ forall j, nth_error r j = if Nat.eqb j i then Some x else nth_error l j.
Proof.
  revert i r. induction l as [|y l IH]; intros [|i] r H; cbn in H; try discriminate.
  - injection H as <-. cbn. split; [lia|]. split; [reflexivity|]. intros [|j]; reflexivity.
  - destruct (lset l i x) as [r'|] eqn:E; [|discriminate]. injection H as <-. destruct (IH _ _ E) as (L & R & N). cbn. split; [lia|]. split; [congruence|]. intros [|j]; [reflexivity|]. apply N.
Qed.
Lemma lset_total A (l : list A) i x : (i < List.length l)%nat -> exists r, lset l i x = Ok r.
Proof. revert i. induction l as [|y l IH]; intros [|i] L; cbn in *; try lia; [eauto|]. destruct (IH i ltac:(lia)) as (r & ->). cbn. eauto. Qed.
Lemma lset_In A (l : list A) i x r y : lset l i x = Ok r -> In y r -> y = x \/ In y l.
Proof.
  intros H I. apply lset_spec in H. destruct H as (_ & _ & N). apply In_nth_error in I. destruct I as (j & Hj). rewrite N in Hj.
  destruct (Nat.eqb j i); [left; congruence|right; exact (nth_error_In _ _ Hj)].
Qed.
Lemma foldM_inv S A (P : S -> Prop) (f : S -> A -> res S) l s s' : (forall s x s', In x l -> P s -> f s x = Ok s' -> P s') -> P s -> foldM f s l = Ok s' -> P s'.
Proof.
  revert s. induction l as [|x l IH]; intros s H Ps E; cbn in E; [congruence|]. destruct (f s x) as [s1|] eqn:F; [|discriminate]. cbn in E.
  apply (IH s1); [|exact (H s x s1 (or_introl eq_refl) Ps F)|assumption]. intros t y t' I. apply H. right. assumption.
Qed.
Lemma foldM_seq S (Inv : nat -> S -> Prop) (f : S -> nat -> res S) n : forall a s s',
  (forall i s s', (a <= i < a + n)%nat -> Inv i s -> f s i = Ok s' -> Inv (Datatypes.S i) s') -> Inv a s -> foldM f s (seq a n) = Ok s' -> Inv (a + n)%nat s'.
Proof.
  induction n as [|n IH]; intros a s s' H I E; cbn in E. { rewrite Nat.add_0_r. congruence. }
  destruct (f s a) as [s1|] eqn:F; [|discriminate]. cbn in E. replace (a + Datatypes.S n)%nat with (Datatypes.S a + n)%nat by lia.
  apply (IH (Datatypes.S a) s1); [|apply (H a s s1); [lia|assumption|assumption]|assumption]. intros i t t' R. apply H. lia.
Qed.
Lemma foldM_total S A (P : S -> Prop) (f : S -> A -> res S) l s : (forall s x, In x l -> P s -> exists s', f s x = Ok s' /\ P s') -> P s -> exists s', foldM f s l = Ok s' /\ P s'.
Proof.
  revert s. induction l as [|x l IH]; intros s H Ps; cbn; [eauto|]. destruct (H s x (or_introl eq_refl) Ps) as (s1 & -> & P1). cbn. apply IH; [|assumption]. intros t y I. apply H. right. assumption.
Qed.

Section Operators.
  Context {A : Type}.
  Implicit Types (ind : list A) (pop : list (list A)) (fv : generators (A := A)).

  Lemma crossover_spec coin (first second : list A) prob nf ns : uniform_crossover coin first second prob = Ok (nf, ns) ->
    List.length nf = List.length first /\ List.length ns = List.length second /\
    forall j, let swapped := Nat.ltb j (List.length first) && qltb (coin j) prob in
      nth_error nf j = (if swapped then nth_error second j else nth_error first j) /\
      nth_error ns j = (if swapped then nth_error first j else nth_error second j).
  Proof.
    intro H. unfold uniform_crossover in H.
    pose (Inv := fun k (fs : list A * list A) => List.length (fst fs) = List.length first /\ List.length (snd fs) = List.length second /\
      forall j, let swapped := Nat.ltb j k && qltb (coin j) prob in
      nth_error (fst fs) j = (if swapped then nth_error second j else nth_error first j) /\
      nth_error (snd fs) j = (if swapped then nth_error first j else nth_error second j)).
    apply (@foldM_seq _ Inv) in H; [exact H| |].
    - intros i (f0 & s0) (f1 & s1) R (L1 & L2 & N) E. cbn [fst snd] in *. destruct (qltb (coin i) prob) eqn:C.
      + unfold lget in E. destruct (nth_error second i) as [s|] eqn:S2; [|discriminate]. cbn [ret_opt bind] in E.
        destruct (lset f0 i s) as [f2|] eqn:LF; [|discriminate]. cbn [bind] in E. destruct (nth_error first i) as [f|] eqn:F2; [|discriminate]. cbn [ret_opt bind] in E.
        destruct (lset s0 i f) as [s2|] eqn:LS; [|discriminate]. cbn [bind] in E. injection E as <- <-. apply lset_spec in LF. apply lset_spec in LS. destruct LF as (_ & LF & NF). destruct LS as (_ & LS & NS).
        unfold Inv. cbn [fst snd]. split; [congruence|]. split; [congruence|]. intro j. cbv zeta. rewrite NF, NS. destruct (Nat.eqb_spec j i) as [->|D].
        * destruct (Nat.ltb_spec i (S i)); [|lia]. rewrite C. cbn [andb]. auto.
        * destruct (N j) as (N1 & N2). cbv zeta in N1, N2. assert (E : Nat.ltb j (S i) = Nat.ltb j i). { destruct (Nat.ltb_spec j (S i)); destruct (Nat.ltb_spec j i); auto; lia. } rewrite E. auto.
      + injection E as <- <-. unfold Inv. cbn [fst snd]. split; [assumption|]. split; [assumption|]. intro j. destruct (N j) as (N1 & N2). cbv zeta in *.
        destruct (Nat.eq_dec j i) as [->|D].
        * rewrite Nat.ltb_irrefl in N1, N2. rewrite C, Bool.andb_false_r. auto.
        * assert (E : Nat.ltb j (S i) = Nat.ltb j i). { destruct (Nat.ltb_spec j (S i)); destruct (Nat.ltb_spec j i); auto; lia. } rewrite E. auto.
    - unfold Inv. cbn [fst snd]. split; [reflexivity|]. split; [reflexivity|]. intro j. cbv zeta. cbn. auto.
  Qed.
  Lemma crossover_total coin (first second : list A) prob : List.length first = List.length second -> exists fs, uniform_crossover coin first second prob = Ok fs.
  Proof.
    intro L. unfold uniform_crossover.
    destruct (@foldM_total _ _ (fun fs : list A * list A => List.length (fst fs) = List.length first /\ List.length (snd fs) = List.length first)
      (fun (fs : list A * list A) idx => if qltb (coin idx) prob then do s <- lget second idx; do nf <- lset (fst fs) idx s; do f <- lget first idx; do ns <- lset (snd fs) idx f; Ok (nf, ns) else Ok fs)
      (seq 0 (List.length first)) (first, second)) as (s' & E & _); [| |eauto].
    - intros (a & b) i I (La & Lb). cbn [fst snd] in *. apply in_seq in I. destruct (qltb (coin i) prob); [|eexists; split; [reflexivity|auto]].
      unfold lget. destruct (nth_error second i) as [s|] eqn:S2; [|apply nth_error_None in S2; lia]. cbn [ret_opt bind].
      destruct (@lset_total _ a i s ltac:(lia)) as (r1 & E1). rewrite E1. cbn [bind].
      destruct (nth_error first i) as [f|] eqn:F2; [|apply nth_error_None in F2; lia]. cbn [ret_opt bind].
      destruct (@lset_total _ b i f ltac:(lia)) as (r2 & E2). rewrite E2. cbn [bind]. eexists. split; [reflexivity|]. apply lset_spec in E1. apply lset_spec in E2. cbn. lia.
    - cbn. auto.
  Qed.
  Lemma informed_spec coin seed fv original prob r : NoDup (dkeys fv) -> informed_init coin seed fv original prob = Ok r ->
    List.length r = List.length original /\
    forall j, nth_error r j = match dget j fv with Some g => if qltb (coin j) prob then Some (g (seed j)) else nth_error original j | None => nth_error original j end.
  Proof.
    unfold informed_init. revert original. induction fv as [|(k & g) fv IH]; intros original N H.
    - cbn in H. injection H as <-. auto.
    - cbn [foldM fst snd] in H. inversion N as [|? ? NK N']; subst.
      destruct (qltb (coin k) prob) eqn:C.
      + destruct (lset original k (g (seed k))) as [o1|] eqn:E; [|discriminate]. cbn [bind] in H. destruct (IH _ N' H) as (L & R). apply lset_spec in E. destruct E as (_ & L1 & R1).
        split; [congruence|]. intro j. rewrite R. cbn [dget]. unfold eqb. destruct (eq_dec j k) as [->|D].
        * rewrite (proj2 (dget_None _ _)) by exact NK. rewrite R1, Nat.eqb_refl, C. reflexivity.
        * rewrite R1. destruct (Nat.eqb_spec j k); [contradiction|]. reflexivity.
      + cbn [bind] in H. destruct (IH _ N' H) as (L & R). split; [assumption|]. intro j. rewrite R. cbn [dget]. unfold eqb. destruct (eq_dec j k) as [->|D]; [|reflexivity].
        rewrite (proj2 (dget_None _ _)) by exact NK. rewrite C. reflexivity.
  Qed.
  (** without assuming distinct keys *)
  Lemma informed_weak coin seed fv original prob r : informed_init coin seed fv original prob = Ok r ->
    List.length r = List.length original /\ forall j x, nth_error r j = Some x -> nth_error original j = Some x \/ exists g s, In (j, g) fv /\ x = g s.
  Proof.
    intro H. unfold informed_init in H.
    apply (@foldM_inv _ _ (fun ind => List.length ind = List.length original /\ forall j x, nth_error ind j = Some x -> nth_error original j = Some x \/ exists g s, In (j, g) fv /\ x = g s)) in H; [assumption| |auto].
    intros s (k & g) s' I (L & N) E. cbn [fst snd] in E. destruct (qltb _ _); [|injection E as <-; auto]. apply lset_spec in E. destruct E as (_ & L' & N').
    split; [congruence|]. intros j x Hx. rewrite N' in Hx. destruct (Nat.eqb_spec j k) as [->|D]; [|auto]. injection Hx as <-. right. exists g, (seed k). auto.
  Qed.
  Lemma informed_total coin seed fv original prob : (forall i, In i (dkeys fv) -> (i < List.length original)%nat) -> exists r, informed_init coin seed fv original prob = Ok r.
  Proof.
    intro K. unfold informed_init.
    destruct (@foldM_total _ _ (fun ind : list A => List.length ind = List.length original)
      (fun ind (kg : nat * (nat -> A)) => if qltb (coin (fst kg)) prob then lset ind (fst kg) (snd kg (seed (fst kg))) else Ok ind) fv original) as (s' & E & _); [|reflexivity|eauto].
    intros s (k & g) I L. cbn [fst snd]. destruct (qltb _ _); [|eauto]. destruct (@lset_total _ s k (g (seed k))) as (r & E). { rewrite L. apply K. apply (in_map fst) in I. exact I. }
    exists r. split; [assumption|]. apply lset_spec in E. lia.
  Qed.

  Variable fitness : list A -> Qc.
  Lemma tournament_spec pick pop k sel : tournament_selection fitness pick pop k = Ok sel ->
    List.length sel = List.length pop /\
    forall i ind, nth_error sel i = Some ind -> In ind pop /\
      (exists j, (j < k)%nat /\ nth_error pop (pick i j mod List.length pop) = Some ind) /\
      forall j c, (j < k)%nat -> nth_error pop (pick i j mod List.length pop) = Some c -> fitness c <= fitness ind.
  Proof.
    intro H. unfold tournament_selection in H. split. { rewrite (mapM_length _ _ H), seq_length. reflexivity. }
    intros i ind Hi. assert (Li : (i < List.length pop)%nat). { rewrite <- (seq_length (List.length pop) 0), <- (mapM_length _ _ H). apply nth_error_Some. congruence. }
    apply mapM_ok in H. assert (G : forall (l : list nat) (l' : list (list A)) (R : nat -> list A -> Prop), Forall2 R l l' -> forall i b, nth_error l' i = Some b -> exists a, nth_error l i = Some a /\ R a b).
    { clear. intros l l' R F. induction F as [|x y l l' H1 H2 IH]; intros [|i] b Hb; cbn in *; try discriminate; [injection Hb as <-; eauto|eauto]. }
    destruct (G _ _ _ H i ind Hi) as (i' & Ei & E). rewrite (nth_error_nth' _ 0%nat) in Ei by (rewrite seq_length; assumption). rewrite seq_nth in Ei by assumption. cbn in Ei. injection Ei as <-.
    match type of E with bind ?r _ = _ => destruct r as [cs|] eqn:C; [|discriminate] end. cbn [bind] in E. destruct (max_by _ cs) as [m|] eqn:M; [|discriminate]. cbn in E. injection E as ->.
    apply (@max_by_spec _ fitness) in M. destruct M as (I & Mx & _). apply mapM_ok in C.
    assert (Cs : forall c, In c cs <-> exists j, (j < k)%nat /\ nth_error pop (pick i j mod List.length pop) = Some c).
    { intro c. split.
      - intro Ic. apply In_nth_error in Ic. destruct Ic as (p & Hp). destruct (G _ _ _ C p c Hp) as (j & Ej & E). apply nth_error_In in Ej. apply in_seq in Ej. exists j. split; [lia|]. unfold lget in E. destruct (nth_error pop _); [cbn in E; congruence|discriminate].
      - intros (j & L & E). clear -C L E. assert (I : In j (seq 0 k)) by (apply in_seq; lia). revert I. induction C as [|x y l l' H1 H2 IH]; intro I; [destruct I|]. destruct I as [->|I]; [|right; auto].
        left. unfold lget in H1. rewrite E in H1. cbn in H1. congruence. }
    split; [apply Cs in I; destruct I as (j & _ & E); exact (nth_error_In _ _ E)|]. split; [apply Cs; assumption|]. intros j c L E. apply Mx. apply Cs. eauto.
  Qed.
  Lemma tournament_total pick pop k : (0 < k)%nat -> exists sel, tournament_selection fitness pick pop k = Ok sel.
  Proof.
    intro K. unfold tournament_selection. assert (G : forall B C (f : B -> res C) l, (forall x, In x l -> exists y, f x = Ok y) -> exists ys, mapM f l = Ok ys).
    { clear. intros B C f l. induction l as [|x l IH]; intro H; cbn; [eauto|]. destruct (H x (or_introl eq_refl)) as (y & ->). cbn. destruct IH as (ys & ->); [intros z I; apply H; right; assumption|]. cbn. eauto. }
    apply G. intros i I. apply in_seq in I.
    destruct (G _ _ (fun j => lget pop (pick i j mod List.length pop)) (seq 0 k)) as (cs & E).
    { intros j _. unfold lget. destruct (nth_error pop _) as [c|] eqn:N; [cbn; eauto|]. apply nth_error_None in N. pose proof (Nat.mod_upper_bound (pick i j) (List.length pop) ltac:(lia)). lia. }
    rewrite E. cbn [bind]. destruct (@max_by_ex _ fitness cs) as (m & M). { intros ->. apply mapM_length in E. rewrite seq_length in E. cbn in E. lia. }
    rewrite M. cbn. eauto.
  Qed.

  (** replacement *)
  Lemma replacement_spec old new : exists rest, fittest fitness (old ++ new) (replacement fitness old new) rest /\ List.length (replacement fitness old new) = List.length old.
  Proof.
    unfold replacement. remember (sort_desc fitness (old ++ new)) as s eqn:Es. exists (skipn (List.length old) s).
    assert (P : Permutation (old ++ new) s) by (subst; apply sort_by_perm). assert (S : StronglySorted (fun a b => fitness b <= fitness a) s) by (subst; apply sort_desc_sorted).
    split.
    - unfold fittest. rewrite firstn_skipn. split; [assumption|]. clear Es P. remember (List.length old) as n. clear Heqn. revert n. induction S as [|x s S IH F]; intro n.
      + rewrite firstn_nil, skipn_nil. split; [constructor|intros a b []].
      + destruct n as [|n]; cbn [firstn skipn]; [split; [constructor|intros a b []]|]. destruct (IH n) as (S' & O). rewrite Forall_forall in F. split.
        * constructor; [assumption|]. apply Forall_forall. intros y I. apply F. rewrite <- (firstn_skipn n s). apply in_or_app. left. assumption.
        * intros a b [<-|I] Ib; [|auto]. apply F. rewrite <- (firstn_skipn n s). apply in_or_app. right. assumption.
    - rewrite firstn_length. rewrite <- (Permutation_length P), app_length. lia.
  Qed.
  Lemma count_firstn v s n : StronglySorted (fun a b => fitness b <= fitness a) s -> at_least fitness v (firstn n s) = Nat.min n (at_least fitness v s).
  Proof.
    intro S. revert n. induction S as [|x s S IH F]; intros [|n]; cbn [firstn]; try reflexivity.
    - unfold at_least in *. cbn [filter]. destruct (qleb_spec v (fitness x)) as [L|G]; cbn [List.length].
      + rewrite IH. lia.
      + assert (Z : forall l, (forall y, In y l -> In y s) -> filter (fun p => qleb v (fitness p)) l = []).
        { clear -G F. induction l as [|y l IH]; intro H; cbn; [reflexivity|]. rewrite Forall_forall in F. specialize (F y (H y (or_introl eq_refl))). destruct (qleb_spec v (fitness y)); [exfalso; qlra|]. apply IH. intros z I. apply H. right. assumption. }
        rewrite (Z s) by auto. rewrite (Z (firstn n s)); [cbn; lia|]. intros y I. rewrite <- (firstn_skipn n s). apply in_or_app. left. assumption.
  Qed.
  Lemma at_least_perm v l l' : Permutation l l' -> at_least fitness v l = at_least fitness v l'.
  Proof.
    unfold at_least. induction 1 as [|x l l' P IH|x y l|l l' l'' P1 IH1 P2 IH2]; cbn [filter].
    - reflexivity.
    - destruct (qleb v (fitness x)); cbn; congruence.
    - destruct (qleb v (fitness x)); destruct (qleb v (fitness y)); reflexivity.
    - congruence.
  Qed.
  Lemma replacement_better old new v : (at_least fitness v old <= at_least fitness v (replacement fitness old new))%nat.
  Proof.
    unfold replacement. rewrite count_firstn by apply sort_desc_sorted. unfold sort_desc. rewrite <- (at_least_perm v (sort_by_perm _ (old ++ new))).
    unfold at_least. rewrite filter_app, app_length. pose proof (countb_le (fun p => qleb v (fitness p)) old) as C. unfold countb in C. lia.
  Qed.
  Lemma replacement_stable old new v : exists n, filter (fun a => qeqb (fitness a) v) (replacement fitness old new) = firstn n (filter (fun a => qeqb (fitness a) v) (old ++ new)).
  Proof.
    unfold replacement. rewrite <- (sort_desc_stable fitness (old ++ new) v). remember (sort_desc fitness (old ++ new)) as s. clear Heqs. remember (List.length old) as n. clear Heqn.
    revert n. induction s as [|x s IH]; intro n. { rewrite firstn_nil. exists 0%nat. reflexivity. }
    destruct n as [|n]; [exists 0%nat; reflexivity|]. cbn [firstn filter]. destruct (IH n) as (m & E). destruct (qeqb (fitness x) v).
    - exists (S m). cbn [firstn]. congruence.
    - exists m. assumption.
  Qed.
End Operators.
