(** * Proofs about the LORE generator: get_oversample, the four runs *)
From Verif Require Import Prelude M_Fuzzy M_Discretize M_Rule M_FDT M_ID3 M_Neighborhood M_Sampling M_Genetic M_Utils M_Lore.
From Verif Require Import P_FuzzyVar P_Metrics P_Factual P_Counterfactual P_Genetic P_Genetic2 P_Utils P_Utils2 P_Utils4 P_Lore.
From Verif Require Import S_Genetic S_Lore.
Set Implicit Arguments.
Open Scope Qc_scope.

Lemma filter_length_le {A} (f : A -> bool) l : (List.length (filter f l) <= List.length l)%nat.
Proof. induction l as [|y l IH]; [apply le_n|]. cbn. destruct (f y); cbn; lia. Qed.
Lemma forallb_false {A} (f : A -> bool) l : forallb f l = false -> exists y, In y l /\ f y = false.
Proof. induction l as [|y l IH]; [discriminate|]. cbn. destruct (f y) eqn:F; [intro H; destruct (IH H) as (z & I & Z); exists z; split; [right|]; assumption|intros _; exists y; split; [left; reflexivity|assumption]]. Qed.
Lemma oversample_inv population halloffame X : oversample population halloffame = Ok X ->
  (2 <= List.length population)%nat /\ (List.length X <= List.length population + List.length halloffame)%nat /\
  (forall p, In p population -> snd p <> None) /\
  exists T, (exists p, In p population /\ snd p = Some T) /\
    forall z, In z X <-> exists q, In (z, Some q) (population ++ halloffame) /\ T < q.
Proof.
  intro H. unfold oversample in H. destruct (mapM _ population) as [pop|] eqn:E; [|discriminate]. cbn [bind] in H.
  assert (L := mapM_length _ _ E). apply mapM_ok in E.
  assert (EP : map (fun p => (fst p, Some (snd p))) pop = population).
  { clear - E. induction E as [|p q l l' H _ IH]; [reflexivity|]. cbn. rewrite IH. f_equal. destruct p as [z [f|]]; cbn in H; [|discriminate]. injection H as <-. reflexivity. }
  remember (flat_map (fun p => match number p with Some q => [q] | None => [] end) halloffame) as hof eqn:EH.
  assert (IH : forall z q, In (z, q) hof <-> In (z, Some q) halloffame).
  { intros z q. rewrite EH, in_flat_map. split.
    - intros ((z' & [f|]) & I & M); cbn in M; [|destruct M]. destruct M as [M|[]]. injection M as <- <-. assumption.
    - intro I. exists (z, Some q). split; [assumption|]. left. reflexivity. }
  assert (LH : (List.length hof <= List.length halloffame)%nat).
  { rewrite EH. clear. induction halloffame as [|p l IH]; [apply le_n|]. cbn [flat_map List.length]. rewrite app_length. destruct (number p); cbn [List.length]; lia. }
  assert (IP : forall z q, In (z, q) pop <-> In (z, Some q) population).
  { intros z q. rewrite <- EP, in_map_iff. split; [intro I; exists (z, q); split; [reflexivity|assumption]|]. intros ((z' & q') & M & I). injection M as <- <-. assumption. }
  destruct (Nat.lt_ge_cases (List.length pop) 2) as [S|G]; [rewrite (oversample_small pop hof S) in H; discriminate|].
  destruct (oversample_spec pop hof G) as (T & R & N & Q). rewrite R in H. injection H as <-.
  split; [lia|]. split.
  { rewrite app_length, !map_length. pose proof (filter_length_le (fun p : list Qc * Qc => qltb T (snd p)) pop) as A1. pose proof (filter_length_le (fun p : list Qc * Qc => qltb T (snd p)) hof) as A2. lia. }
  split. { intros p I. rewrite <- EP in I. apply in_map_iff in I. destruct I as (p' & <- & _). discriminate. }
  exists T. split.
  - assert (C : (exists p q, In p pop /\ In q pop /\ snd p <> snd q) \/ forall p q, In p pop -> In q pop -> snd p = snd q).
    { destruct (forallb (fun p => forallb (fun q => qeqb (snd p) (snd q)) pop) pop) eqn:F.
      - right. intros p q Ip Iq. rewrite forallb_forall in F. specialize (F p Ip). rewrite forallb_forall in F. apply qeqb_eq. auto.
      - left. destruct (forallb_false _ _ F) as (p & Ip & E1). destruct (forallb_false _ _ E1) as (q & Iq & E2). apply qeqb_neq in E2. exists p, q. splits; assumption. }
    destruct C as [C|C].
    + destruct (N C) as (T' & (IT & _) & _). apply in_map_iff in IT. destruct IT as ((z & q) & Eq & I). cbn in Eq. subst q. exists (z, Some T). split; [apply IP; assumption|reflexivity].
    + destruct pop as [|(z & q) pop]; [cbn in G; lia|]. exists (z, Some T). split; [|reflexivity]. rewrite <- (Q C (z, q) (or_introl eq_refl)). cbn [snd]. apply IP. left. reflexivity.
  - intro z. rewrite in_app_iff, !in_map_iff. split.
    + intros [((z' & q) & <- & I)|((z' & q) & <- & I)]; apply filter_In in I; destruct I as (I & Lt); apply qltb_lt in Lt; exists q; (split; [apply in_app_iff|assumption]); [left; apply IP|right; apply IH]; assumption.
    + intros (q & I & Lt). apply in_app_iff in I. destruct I as [I|I]; [left|right]; exists (z, q); (split; [reflexivity|]); apply filter_In; (split; [|apply qltb_lt; assumption]); [apply IP|apply IH]; assumption.
Qed.
Lemma oversample_total population halloffame : (2 <= List.length population)%nat -> (forall p, In p population -> snd p <> None) -> exists X, oversample population halloffame = Ok X.
Proof.
  intros L N. unfold oversample. destruct (@mapM_total _ _ (fun p => ret_opt ValueError (number p)) population) as (pop & E).
  { intros (z & [q|]) I; [exists (z, q); reflexivity|]. destruct (N _ I eq_refl). }
  rewrite E. cbn [bind]. apply mapM_length in E. destruct (oversample_spec pop (flat_map (fun p => match number p with Some q => [q] | None => [] end) halloffame)) as (T & R & _); [rewrite E; exact L|]. eexists. exact R.
Qed.

Section Runs.
  Variables (fv : dict nat (list Qc)) (rnd : nat -> nat -> ea_draws) (hall : nat -> list nat) (x : list Qc).
  Variable fitness : list Qc -> res fl.
  (** what a run contributes *)
  Definition stands_out (z : list Qc) : Prop := bred x fv z /\ exists y fy fz, bred x fv y /\ fitness y = Ok (Some fy) /\ fitness z = Ok (Some fz) /\ fy < fz.
  Lemma run_group_inv run size hr cxpb mutpb ngen groups : run_group fv rnd hall run fitness x size hr cxpb mutpb ngen = Ok groups ->
    (size = 0%nat /\ groups = []) \/
    ((2 <= size)%nat /\ share_size size hr <> 0%nat /\ (exists y f, bred x fv y /\ fitness y = Ok (Some f)) /\
     (List.length (List.concat groups) <= size + share_size size hr)%nat /\ (forall z, In z (List.concat groups) -> stands_out z) /\ (groups <> [] -> List.concat groups <> [])).
  Proof.
    intro H. unfold run_group in H. destruct (Nat.ltb_spec 0 size) as [P|]; [right|left; split; [lia|congruence]].
    destruct (ga_fit fv fitness (rnd run) (hall run) size (repeat x size) hr cxpb mutpb mutpb ngen) as [[pop hof]|] eqn:E; [|discriminate]. cbn [bind fst snd] in H.
    apply ga_fit_good in E. destruct E as (NZ & L & F & FH & LH). destruct (oversample pop hof) as [X|] eqn:O; [|discriminate]. cbn [bind] in H. apply oversample_inv in O.
    destruct O as (G & LX & NN & T & ((y & [f|]) & IY & FY) & C); [|discriminate]. injection FY as ->. rewrite Forall_forall in F, FH. assert (SY := F _ IY). destruct SY as (BY & EY). cbn [fst snd] in BY, EY.
    assert (EX : List.concat groups = X) by (destruct X; injection H as <-; cbn; rewrite ?app_nil_r; reflexivity).
    split; [lia|]. split; [assumption|]. split; [exists y, T; split; assumption|]. rewrite EX. split; [lia|]. split.
    - intros z I. apply C in I. destruct I as (q & I & Lt). assert (S : scored_by x fv fitness (z, Some q)) by (apply in_app_iff in I; destruct I as [I|I]; auto). destruct S as (BZ & EZ). split; [assumption|]. exists y, T, q. splits; assumption.
    - intros NG ->. apply NG. congruence.
  Qed.
  Lemma run_group_total run size hr cxpb mutpb ngen : (2 <= List.length x)%nat -> covers fv (List.length x) ->
    (size <> 0%nat -> (2 <= size)%nat /\ share_size size hr <> 0%nat) -> (forall z, bred x fv z -> exists f, fitness z = Ok (Some f)) ->
    exists groups, run_group fv rnd hall run fitness x size hr cxpb mutpb ngen = Ok groups.
  Proof.
    intros W C S T. unfold run_group. destruct (Nat.ltb_spec 0 size) as [P|]; [|eexists; reflexivity]. destruct (S ltac:(lia)) as (S2 & NZ).
    destruct (@ga_fit_total x fv fitness (rnd run) (hall run) size hr cxpb mutpb mutpb ngen W C P NZ) as ((pop & hof) & E). { intros z B. destruct (T z B) as (f & Ef). exists (Some f). assumption. }
    rewrite E. cbn [bind fst snd]. apply ga_fit_good in E. destruct E as (_ & L & F & _). destruct (@oversample_total pop hof) as (X & O); [exact (eq_ind_r (fun n => (2 <= n)%nat) S2 L)| |rewrite O; eexists; reflexivity].
    intros (z & f) I Q. cbn in Q. subst f. rewrite Forall_forall in F. destruct (F _ I) as (B & Ez). cbn [fst snd] in B, Ez. destruct (T z B) as (f & Ef). congruence.
  Qed.
End Runs.

(** implicit arguments off: finding them would unfold the runs *)
Unset Implicit Arguments.
Section FourRuns.
  Variables (bb : list Qc -> Z) (distance : record -> record -> res fl) (idx : dict nat string) (fv : dict nat (list Qc)).
  Variables (rnd : nat -> nat -> ea_draws) (hall : nat -> list nat) (x : list Qc) (nt : neigtype) (n : nat) (hr a1 a2 e1 e2 cxpb mutpb : Qc) (ngen : nat).
  Definition size_of (a : aim) : nat := share_size n (ratio_of nt (key_of a)).
  Definition run_of (a : aim) : nat := match a with NearSame => 0 | NearOther => 1 | FarSame => 2 | FarOther => 3 end.
  Definition goal_of (a : aim) : list Qc -> res fl := fitness_of a bb distance idx x a1 a2 (eta_of a e1 e2).
  Definition group_of (a : aim) := run_group fv rnd hall (run_of a) (goal_of a) x (size_of a) hr cxpb mutpb ngen.
  Lemma generate_eq : generate_data bb distance idx fv rnd hall x nt n hr a1 a2 e1 e2 cxpb mutpb ngen =
    do g1 <- group_of NearSame; do g2 <- group_of NearOther; do g3 <- group_of FarSame; do g4 <- group_of FarOther;
    match g1 ++ g2 ++ g3 ++ g4 with [] => Err ValueError | Xgp => Ok (List.concat Xgp) end.
  Proof. reflexivity. Qed.
  Lemma generate_inv_groups Z : generate_data bb distance idx fv rnd hall x nt n hr a1 a2 e1 e2 cxpb mutpb ngen = Ok Z ->
    exists g : aim -> list (list (list Qc)), (forall a, group_of a = Ok (g a)) /\ g NearSame ++ g NearOther ++ g FarSame ++ g FarOther <> [] /\
      Z = List.concat (g NearSame) ++ List.concat (g NearOther) ++ List.concat (g FarSame) ++ List.concat (g FarOther).
  Proof.
    intro H. rewrite generate_eq in H. destruct (group_of NearSame) as [g1|] eqn:E1; [|discriminate]. destruct (group_of NearOther) as [g2|] eqn:E2; [|discriminate]. destruct (group_of FarSame) as [g3|] eqn:E3; [|discriminate]. destruct (group_of FarOther) as [g4|] eqn:E4; [|discriminate]. cbn [bind] in H.
    exists (fun a => match a with NearSame => g1 | NearOther => g2 | FarSame => g3 | FarOther => g4 end). split; [intros []; assumption|]. rewrite <- !concat_app. destruct (g1 ++ g2 ++ g3 ++ g4); [discriminate|]. split; [discriminate|congruence].
  Qed.
  Lemma generate_total_or : (2 <= List.length x)%nat -> covers fv (List.length x) -> (forall a, size_of a <> 0%nat -> (2 <= size_of a)%nat /\ share_size (size_of a) hr <> 0%nat) ->
    (forall a z, bred x fv z -> exists f, goal_of a z = Ok (Some f)) ->
    exists g : aim -> list (list (list Qc)), (forall a, group_of a = Ok (g a)) /\
      generate_data bb distance idx fv rnd hall x nt n hr a1 a2 e1 e2 cxpb mutpb ngen =
      match g NearSame ++ g NearOther ++ g FarSame ++ g FarOther with [] => Err ValueError | Xgp => Ok (List.concat Xgp) end.
  Proof.
    intros W C S T. assert (Q : forall a, exists groups, group_of a = Ok groups) by (intro a; apply run_group_total; auto).
    destruct (Q NearSame) as (g1 & E1), (Q NearOther) as (g2 & E2), (Q FarSame) as (g3 & E3), (Q FarOther) as (g4 & E4).
    exists (fun a => match a with NearSame => g1 | NearOther => g2 | FarSame => g3 | FarOther => g4 end). split; [intros []; assumption|]. rewrite generate_eq, E1, E2, E3, E4. reflexivity.
  Qed.
  (** where every distance is 0 the fitness tells the outcome only *)
  Lemma blind_fitness a z f : blind distance -> goal_of a z = Ok f -> e1 <= 1 ->
    wanted bb a x z /\ f = Some a2 \/ ~ wanted bb a x z /\ f = Some 0.
  Proof.
    intros B H E. destruct (fitness_row _ _ _ _ _ _ _ _ _ H) as (d & R). assert (D : d = Some 0) by (destruct R as (xd & zd & _ & _ & R); exact (B _ _ _ R)). subst d.
    destruct (@fitness_value bb distance idx a x a1 a2 (eta_of a e1 e2) z (Some 0) R) as (r & (s & -> & S0 & S1) & F). unfold goal_of in H. rewrite F in H. cbn [fl_mult option_map fl_plus] in H.
    assert (Z : s = 0). { destruct (uncounted_dec a (eta_of a e1 e2) 0) as [U|U]; [exact (S0 U)|]. rewrite (S1 U). unfold uncounted, eta_of in U. destruct (near_wanted a); [|reflexivity]. exfalso. apply U. qlra. }
    subst s. injection H as <-. destruct (wanted_dec bb a x z) as [(-> & W)|(-> & W)]; [left|right]; (split; [assumption|]); f_equal; ring.
  Qed.
End FourRuns.

Lemma foldM_enum {S A} (Inv : nat -> S -> Prop) (f : S -> nat * A -> res S) (l : list A) (s s' : S) :
  (forall i c s s', nth_error l i = Some c -> Inv i s -> f s (i, c) = Ok s' -> Inv (Datatypes.S i) s') -> Inv 0%nat s -> foldM f s (enumerate l) = Ok s' -> Inv (List.length l) s'.
Proof.
  intros H I E. unfold enumerate in E.
  assert (Q : forall k m s s', (forall i c s s', nth_error m i = Some c -> Inv (k + i)%nat s -> f s ((k + i)%nat, c) = Ok s' -> Inv (Datatypes.S (k + i)) s') -> Inv k s -> foldM f s (zip (seq k (List.length m)) m) = Ok s' -> Inv (k + List.length m)%nat s').
  { clear. intros k m. revert k. induction m as [|c m IH]; intros k s s' H I E; cbn in E. { rewrite Nat.add_0_r. congruence. }
    destruct (f s (k, c)) as [s1|] eqn:F; [|discriminate]. cbn in E. cbn [List.length]. replace (k + Datatypes.S (List.length m))%nat with (Datatypes.S k + List.length m)%nat by lia.
    apply (IH (Datatypes.S k) s1 s'); [| |assumption].
    - intros i d t t' N It Ft. replace (Datatypes.S (Datatypes.S k + i)) with (Datatypes.S (k + Datatypes.S i)) by lia. apply (H (Datatypes.S i) d t t' N); [replace (k + Datatypes.S i)%nat with (Datatypes.S k + i)%nat by lia; assumption|]. replace (k + Datatypes.S i)%nat with (Datatypes.S k + i)%nat by lia. assumption.
    - specialize (H 0%nat c s s1 eq_refl). rewrite Nat.add_0_r in H. auto. }
  apply (Q 0%nat l s s'); [|assumption|assumption]. intros i c t t' N It Ft. exact (H i c t t' N It Ft).
Qed.
Lemma qcolumn_spec X i values : qcolumn X i = Ok values <-> column_values X i values.
Proof.
  unfold qcolumn, column_values. rewrite mapM_ok. split.
  - induction 1 as [|r v X vs E H IH]; [reflexivity|]. cbn. rewrite IH. destruct (nth_error r i); [|discriminate]. cbn in E. congruence.
  - revert values. induction X as [|r X IH]; intros [|v vs] E; try discriminate; constructor; cbn in E; [|apply IH; congruence]. destruct (nth_error r i); [|discriminate]. cbn. congruence.
Qed.
Definition value_step (normal : nat -> nat -> Qc) (X : list (list Qc)) (discrete continuous : list string) (size : nat) (st : dict nat (list Qc) * option (list Qc)) (ic : nat * string) :=
  let '(i, col) := ic in
  do values <- qcolumn X i;
  do new_values <-
    (if memb col discrete then Ok (qunique values)
     else if memb col continuous then Ok (values ++ map (normal i) (seq 0 size))
     else ret_opt NameError (snd st));
  Ok (dset i new_values (fst st), Some new_values).
Lemma calculate_eq normal X columns cls discrete continuous size : calculate_feature_values normal X columns cls discrete continuous size =
  do columns1 <- list_remove cls columns; do st <- foldM (value_step normal X discrete continuous size) ([], None) (enumerate columns1); Ok (fst st).
Proof. reflexivity. Qed.
Lemma calculate_spec normal X columns cls discrete continuous size fv : NoDup columns -> calculate_feature_values normal X columns cls discrete continuous size = Ok fv ->
  In cls columns /\ dkeys fv = seq 0 (List.length columns - 1) /\
  forall i c, nth_error (filter (fun c => negb (eqb c cls)) columns) i = Some c -> exists vs, dget i fv = Some vs /\ listed X discrete continuous size fv i c vs.
Proof.
  intros N H. rewrite calculate_eq in H. destruct (list_remove cls columns) as [cols|] eqn:R; [|discriminate]. cbn [bind] in H.
  assert (LC : List.length cols = (List.length columns - 1)%nat).
  { clear - R. revert cols R. induction columns as [|y l IH]; intros cols R; [discriminate|]. cbn in R. destruct (eqb y cls); [injection R as <-; cbn; lia|]. destruct (list_remove cls l) as [r|] eqn:E; [|discriminate]. cbn in R. injection R as <-. cbn. specialize (IH r eq_refl). destruct l; [discriminate|]. cbn in *. lia. }
  apply list_remove_filter in R; [|assumption]. destruct R as (I & <-).
  destruct (foldM (value_step normal X discrete continuous size) ([], None) (enumerate cols)) as [st|] eqn:F; [|discriminate]. cbn [bind] in H. injection H as <-.
  split; [assumption|]. rewrite <- LC.
  pose (Inv := fun k (st : dict nat (list Qc) * option (list Qc)) => dkeys (fst st) = seq 0 k /\
    (snd st = match k with O => None | S j => dget j (fst st) end) /\
    forall i c, (i < k)%nat -> nth_error cols i = Some c -> exists vs, dget i (fst st) = Some vs /\ listed X discrete continuous size (fst st) i c vs).
  assert (G : Inv (List.length cols) st).
  { revert F. apply (foldM_enum Inv); [|split; [reflexivity|]; split; [reflexivity|]; intros; lia].
    intros i c (d & last) st' Nc (K & Lst & P) E. cbn [fst snd] in K, Lst, P. unfold value_step in E. cbn [fst snd] in E. destruct (qcolumn X i) as [values|] eqn:Q; [|discriminate]. apply qcolumn_spec in Q. cbn [bind] in E.
    assert (NI : ~ In i (dkeys d)) by (rewrite K, in_seq; lia).
    assert (KD : forall v, dkeys (dset i v d) = seq 0 (S i)). { intro v. rewrite dset_keys, (proj2 (@memb_not_In _ _ i (dkeys d)) NI), K. rewrite seq_S. reflexivity. }
    assert (OLD : forall v i' c', (i' < i)%nat -> nth_error cols i' = Some c' -> exists vs, dget i' (dset i v d) = Some vs /\ listed X discrete continuous size (dset i v d) i' c' vs).
    { intros v i' c' L' N'. destruct (P i' c' L' N') as (vs & D & (vals & CV & A & B & C)). exists vs. split; [rewrite dset_other by lia; assumption|]. exists vals. splits; try assumption. intros U V. destruct (C U V) as (j & J & Dj). exists j. split; [assumption|]. rewrite dset_other by lia. assumption. }
    assert (FIN : forall v, listed X discrete continuous size (dset i v d) i c v -> Inv (S i) (dset i v d, Some v)).
    { intros v L'. unfold Inv. cbn [fst snd]. split; [apply KD|]. split; [rewrite dset_same; reflexivity|]. intros i' c' Li N'. destruct (Nat.eq_dec i' i) as [->|]; [|apply OLD; [lia|assumption]]. assert (c' = c) by congruence. subst c'. exists v. split; [apply dset_same|assumption]. }
    destruct (memb c discrete) eqn:MD; [|destruct (memb c continuous) eqn:MC].
    - cbn [bind] in E. injection E as <-. apply FIN. apply (proj1 (@memb_In _ _ c discrete)) in MD. exists values. splits; [assumption| |intros U; contradiction|intros U; contradiction]. intros _. split; [apply qunique_sorted|intro v; apply qunique_In].
    - cbn [bind] in E. injection E as <-. apply FIN. apply (proj1 (@memb_not_In _ _ c discrete)) in MD. apply (proj1 (@memb_In _ _ c continuous)) in MC. exists values. splits; [assumption|intros U; contradiction| |intros _ U; contradiction]. intros _ _. exists (map (normal i) (seq 0 size)). split; [rewrite map_length, seq_length; reflexivity|reflexivity].
    - destruct last as [v|]; [|discriminate]. cbn [bind ret_opt] in E. injection E as <-. apply FIN. apply (proj1 (@memb_not_In _ _ c discrete)) in MD. apply (proj1 (@memb_not_In _ _ c continuous)) in MC. exists values. splits; [assumption|intros U; contradiction|intros _ U; contradiction|]. intros _ _. destruct i as [|j]; [discriminate|]. exists j. split; [reflexivity|]. rewrite dset_other by lia. congruence. }
  destruct G as (K & _ & P). split; [assumption|]. intros i c Nc. apply P; [apply nth_error_Some; congruence|assumption].
Qed.
