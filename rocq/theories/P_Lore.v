(** * Proofs about the LORE generator: rounding, breeding, the runs *)
From Verif Require Import Prelude M_Fuzzy M_Discretize M_Rule M_FDT M_ID3 M_Neighborhood M_Sampling M_Genetic M_Utils M_Lore.
From Verif Require Import P_FuzzyVar P_Metrics P_Factual P_Counterfactual P_Genetic P_Genetic2 P_Utils P_Utils2 P_Utils4.
From Verif Require Import S_Genetic S_Lore.
Set Implicit Arguments.
Open Scope Qc_scope.

(* ------------------------------------------------------------------ *)
(** ** np.round *)
Lemma np_round_spec q : nearest_even q (np_round q).
Proof.
  unfold nearest_even, np_round. destruct (floor_spec q) as (F1 & F2). remember (Qround.Qfloor (this q)) as f eqn:Ef. clear Ef.
  rewrite qz_plus in F2. change (qz 1) with 1 in F2. assert (H2 : qc 1 2 + qc 1 2 = 1) by (apply Qc_is_canon; reflexivity).
  assert (H0 : 0 < qc 1 2) by reflexivity. generalize dependent (qc 1 2). intros h H2 H0.
  destruct (qltb_spec (q - qz f) h); [|destruct (qltb_spec h (q - qz f))].
  - unfold qabs. qcase; split; try qlra; intro; exfalso; qlra.
  - rewrite qz_plus. change (qz 1) with 1. unfold qabs. qcase; split; try qlra; intro; exfalso; qlra.
  - assert (q - qz f = h) by qlra. destruct (Z.even f) eqn:E.
    + split; [unfold qabs; qcase; qlra|intros _; assumption].
    + rewrite qz_plus. change (qz 1) with 1. split; [unfold qabs; qcase; qlra|]. intros _. rewrite Z.even_add. rewrite E. reflexivity.
Qed.
Lemma nearest_even_unique q a b : nearest_even q a -> nearest_even q b -> a = b.
Proof.
  intros (A1 & A2) (B1 & B2). assert (H2 : qc 1 2 + qc 1 2 = 1) by (apply Qc_is_canon; reflexivity).
  generalize dependent (qc 1 2). intros h A1 A2 B1 B2 H2.
  apply qabs_le in A1. apply qabs_le in B1. destruct A1 as (A1 & A1'), B1 as (B1 & B1').
  assert (D : qz a <= qz (b + 1) /\ qz b <= qz (a + 1)). { rewrite !qz_plus. change (qz 1) with 1. split; qlra. }
  rewrite !qz_le in D. assert (C : (a = b \/ a = b + 1 \/ b = a + 1)%Z) by lia.
  destruct C as [C|[C|C]]; [assumption| |]; exfalso; subst; rewrite qz_plus in *; change (qz 1) with 1 in *.
  - assert (E1 : Z.even (b + 1) = true) by (apply A2; unfold qabs; qcase; qlra). assert (E2 : Z.even b = true) by (apply B2; unfold qabs; qcase; qlra).
    rewrite Z.even_add, E2 in E1. discriminate.
  - assert (E1 : Z.even a = true) by (apply A2; unfold qabs; qcase; qlra). assert (E2 : Z.even (a + 1) = true) by (apply B2; unfold qabs; qcase; qlra).
    rewrite Z.even_add, E1 in E2. discriminate.
Qed.
Lemma np_round_mono a b : a <= b -> (np_round a <= np_round b)%Z.
Proof.
  intro H. destruct (np_round_spec a) as (A1 & A2), (np_round_spec b) as (B1 & B2). remember (np_round a) as u. remember (np_round b) as v. clear Hequ Heqv.
  destruct (Z_le_gt_dec u v) as [L|L]; [assumption|]. exfalso. assert (H2 : qc 1 2 + qc 1 2 = 1) by (apply Qc_is_canon; reflexivity).
  generalize dependent (qc 1 2). intros h A1 A2 B1 B2 H2. apply qabs_le in A1. apply qabs_le in B1. destruct A1 as (A1 & A1'), B1 as (B1 & B1').
  assert (G : qz (v + 1) <= qz u) by (apply qz_le; lia). rewrite qz_plus in G. change (qz 1) with 1 in G.
  assert (E : qz u <= qz (v + 1)) by (rewrite qz_plus; change (qz 1) with 1; qlra). rewrite qz_le in E. assert (u = v + 1)%Z by lia. subst u. rewrite qz_plus in *. change (qz 1) with 1 in *.
  assert (E1 : Z.even (v + 1) = true) by (apply A2; unfold qabs; qcase; qlra). assert (E2 : Z.even v = true) by (apply B2; unfold qabs; qcase; qlra).
  rewrite Z.even_add, E2 in E1. discriminate.
Qed.
Lemma share_size_mono a b r : 0 <= r -> (a <= b)%nat -> (share_size a r <= share_size b r)%nat.
Proof.
  intros R L. unfold share_size.
  assert (np_round (qn a * r) <= np_round (qn b * r))%Z by (apply np_round_mono; apply Qcmult_le_compat_r; [apply qn_le; assumption|assumption]). lia.
Qed.

(* ------------------------------------------------------------------ *)
(** ** Fitness *)
Lemma wanted_dec bb a x z : (if same_wanted a then (if Z.eqb (bb x) (bb z) then 1 else 0) else (if negb (Z.eqb (bb x) (bb z)) then 1 else 0)) = 1 /\ wanted bb a x z \/
  (if same_wanted a then (if Z.eqb (bb x) (bb z) then 1 else 0) else (if negb (Z.eqb (bb x) (bb z)) then 1 else 0)) = 0 /\ ~ wanted bb a x z.
Proof. unfold wanted. destruct (same_wanted a), (Z.eqb_spec (bb x) (bb z)); cbn [negb]; [left|right|right|left]; split; try reflexivity; congruence. Qed.
(** the fitness from the distance and the outcomes *)
Lemma fitness_value bb distance idx a x alpha1 alpha2 eta z d : row_distance distance idx x z d ->
  exists r, (match d with
             | None => r = None
             | Some q => exists s, r = Some s /\ (uncounted a eta q -> s = 0) /\ (~ uncounted a eta q -> s = if near_wanted a then 1 - q else q)
             end) /\
  fitness_of a bb distance idx x alpha1 alpha2 eta z =
    Ok (fl_plus (fl_mult alpha1 r) (Some (alpha2 * (if same_wanted a then (if Z.eqb (bb x) (bb z) then 1 else 0) else (if negb (Z.eqb (bb x) (bb z)) then 1 else 0))))).
Proof.
  intros (xd & zd & KX & KZ & D).
  destruct a; cbn [fitness_of same_wanted near_wanted]; unfold uncounted; cbn [near_wanted];
    unfold fitness_sso, fitness_sdo, fitness_dso, fitness_ddo, sim_ratio; rewrite KX; cbn [bind]; rewrite KZ; cbn [bind]; rewrite D; cbn [bind];
    (destruct d as [q|]; cbn [option_map]; [eexists; split; [|reflexivity]|exists None; split; reflexivity]).
  - destruct (qleb_spec eta (1 - q)); eexists; (split; [reflexivity|]); split; intro; try reflexivity; try contradiction; exfalso; qlra.
  - destruct (qleb_spec eta (1 - q)); eexists; (split; [reflexivity|]); split; intro; try reflexivity; try contradiction; exfalso; qlra.
  - destruct (qleb_spec (1 - q) eta); eexists; (split; [reflexivity|]); split; intro; try reflexivity; try contradiction; qlra.
  - destruct (qleb_spec (1 - q) eta); eexists; (split; [reflexivity|]); split; intro; try reflexivity; try contradiction; qlra.
Qed.
Lemma fitness_row bb distance idx a x alpha1 alpha2 eta z f : fitness_of a bb distance idx x alpha1 alpha2 eta z = Ok f -> exists d, row_distance distance idx x z d.
Proof.
  intro H. assert (Q : exists s, sim_ratio distance idx x z = Ok s).
  { destruct a; cbn [fitness_of] in H; unfold fitness_sso, fitness_sdo, fitness_dso, fitness_ddo in H; destruct (sim_ratio distance idx x z) as [s|]; try discriminate; exists s; reflexivity. }
  destruct Q as (s & Q). unfold sim_ratio in Q. unfold row_distance. destruct (keyed idx x) as [xd|]; [|discriminate]. destruct (keyed idx z) as [zd|]; [|discriminate]. cbn [bind] in Q. destruct (distance xd zd) as [d|] eqn:D; [|discriminate].
  exists d, xd, zd. splits; try reflexivity. assumption.
Qed.
Lemma uncounted_dec a eta d : {uncounted a eta d} + {~ uncounted a eta d}.
Proof. unfold uncounted. destruct (near_wanted a); [destruct (Qclt_le_dec (1 - d) eta)|destruct (Qclt_le_dec eta (1 - d))]; [right|left|right|left]; try assumption; intro; qlra. Qed.

(* ------------------------------------------------------------------ *)
(** ** Breeding *)
Lemma nth_firstn {A} (l : list A) n j : nth_error (firstn n l) j = if Nat.ltb j n then nth_error l j else None.
Proof. revert l j. induction n as [|n IH]; intros l j; [destruct j; reflexivity|]. destruct l as [|y l]; [destruct j; cbn [firstn nth_error]; match goal with |- _ = (if ?c then _ else _) => destruct c end; reflexivity|]. destruct j as [|j]; [reflexivity|]. cbn [firstn nth_error]. rewrite IH. reflexivity. Qed.
Lemma nth_skipn {A} (l : list A) n j : nth_error (skipn n l) j = nth_error l (n + j).
Proof. revert l. induction n as [|n IH]; intros [|y l]; [reflexivity|reflexivity|destruct j; reflexivity|]. cbn. apply IH. Qed.
(** the middle part of [b] between the outer parts of [a] *)
Lemma nth_spliced {A} (a b : list A) lo hi j : List.length a = List.length b -> (lo <= hi)%nat -> (hi <= List.length a)%nat ->
  nth_error (firstn lo a ++ firstn (hi - lo) (skipn lo b) ++ skipn hi a) j = if Nat.leb lo j && Nat.ltb j hi then nth_error b j else nth_error a j.
Proof.
  intros L H1 H2. assert (L1 : List.length (firstn lo a) = lo) by (rewrite firstn_length; lia).
  assert (L2 : List.length (firstn (hi - lo) (skipn lo b)) = (hi - lo)%nat) by (rewrite firstn_length, skipn_length; lia).
  destruct (Nat.leb_spec lo j) as [A1|A1]; cbn [andb].
  - rewrite nth_error_app2 by lia. rewrite L1. destruct (Nat.ltb_spec j hi) as [A2|A2].
    + rewrite nth_error_app1 by lia. rewrite nth_firstn, nth_skipn. rewrite (proj2 (Nat.ltb_lt _ _)) by lia. f_equal. lia.
    + rewrite nth_error_app2 by lia. rewrite L2, nth_skipn. f_equal. lia.
  - rewrite nth_error_app1 by lia. rewrite nth_firstn. rewrite (proj2 (Nat.ltb_lt _ _)) by lia. reflexivity.
Qed.
Lemma spliced_length {A} (a b : list A) lo hi : List.length a = List.length b -> (lo <= hi)%nat -> (hi <= List.length a)%nat ->
  List.length (firstn lo a ++ firstn (hi - lo) (skipn lo b) ++ skipn hi a) = List.length a.
Proof. intros. rewrite !app_length, !firstn_length, !skipn_length. lia. Qed.
Lemma two_point_spec c1 c2 a b u v : List.length a = List.length b -> two_point c1 c2 a b = Ok (u, v) ->
  exists lo hi, (1 <= lo)%nat /\ (lo < hi)%nat /\ (hi <= List.length a)%nat /\ List.length u = List.length a /\ List.length v = List.length a /\
  (forall j, nth_error u j = if Nat.leb lo j && Nat.ltb j hi then nth_error b j else nth_error a j) /\
  (forall j, nth_error v j = if Nat.leb lo j && Nat.ltb j hi then nth_error a j else nth_error b j).
Proof.
  intros L H. unfold two_point in H. rewrite <- L, Nat.min_id in H. destruct (Nat.ltb_spec (List.length a) 2) as [|G]; [discriminate|].
  remember (1 + c1 mod List.length a)%nat as p1 eqn:E1. remember (1 + c2 mod (List.length a - 1))%nat as p2 eqn:E2.
  assert (B1 : (1 <= p1 <= List.length a)%nat) by (pose proof (Nat.mod_upper_bound c1 (List.length a)); lia).
  assert (B2 : (1 <= p2 <= List.length a - 1)%nat) by (pose proof (Nat.mod_upper_bound c2 (List.length a - 1)); lia). clear E1 E2.
  assert (Q : exists lo hi, (if Nat.leb p1 p2 then (p1, (p2 + 1)%nat) else (p2, p1)) = (lo, hi) /\ (1 <= lo)%nat /\ (lo < hi)%nat /\ (hi <= List.length a)%nat).
  { destruct (Nat.leb_spec p1 p2); eexists; eexists; (split; [reflexivity|]); lia. }
  destruct Q as (lo & hi & Q & Q1 & Q2 & Q3). rewrite Q in H. injection H as <- <-. exists lo, hi.
  splits; try assumption.
  - apply spliced_length; lia.
  - rewrite spliced_length; lia.
  - intro j. apply nth_spliced; lia.
  - intro j. apply nth_spliced; lia.
Qed.
Lemma two_point_total c1 c2 a b : List.length a = List.length b -> (2 <= List.length a)%nat -> exists uv, two_point c1 c2 a b = Ok uv.
Proof.
  intros L G. unfold two_point. rewrite <- L, Nat.min_id. destruct (Nat.ltb_spec (List.length a) 2); [lia|]. cbv zeta. destruct (if Nat.leb _ _ then _ else _). eexists. reflexivity.
Qed.
Lemma two_point_bred c1 c2 x fv a b u v : bred x fv a -> bred x fv b -> two_point c1 c2 a b = Ok (u, v) -> bred x fv u /\ bred x fv v.
Proof.
  intros (LA & A) (LB & B) H. apply two_point_spec in H; [|congruence]. destruct H as (lo & hi & _ & _ & _ & LU & LV & U & V). split.
  - split; [congruence|]. intros j w W. rewrite U in W. destruct (_ && _); auto.
  - split; [congruence|]. intros j w W. rewrite V in W. destruct (_ && _); auto.
Qed.

Lemma mutate_bred coin seed x fv p ind m : bred x fv ind -> mutate coin seed fv p ind = Ok m -> bred x fv m.
Proof.
  intros B H. unfold mutate in H. revert H. apply (@foldM_inv _ _ (bred x fv)); [|assumption].
  intros s i s' I Bs E. destruct (dget i fv) as [vs|] eqn:D; [|discriminate]. cbn [bind ret_opt] in E. destruct (qleb (coin i) p); [|congruence].
  destruct (nth_error vs (seed i mod List.length vs)) as [v|] eqn:V; [|discriminate]. cbn [bind ret_opt] in E. apply lset_spec in E. destruct E as (_ & L & N). destruct Bs as (LS & Bs).
  split; [congruence|]. intros j w W. rewrite N in W. destruct (Nat.eqb_spec j i) as [->|]; [|exact (Bs j w W)]. right. exists vs. split; [assumption|]. injection W as <-. exact (nth_error_In _ _ V).
Qed.
Lemma mutate_total coin seed fv p ind : covers fv (List.length ind) -> exists m, mutate coin seed fv p ind = Ok m /\ List.length m = List.length ind.
Proof.
  intro C. unfold mutate. apply (@foldM_total _ _ (fun m => List.length m = List.length ind)); [|reflexivity].
  intros s i I L. apply in_seq in I. destruct (C i ltac:(lia)) as (v & vs & ->). cbn [bind ret_opt]. destruct (qleb (coin i) p); [|exists s; split; [reflexivity|assumption]].
  assert (G : (seed i mod List.length (v :: vs) < List.length (v :: vs))%nat) by (apply Nat.mod_upper_bound; discriminate).
  destruct (nth_error (v :: vs) (seed i mod List.length (v :: vs))) as [w|] eqn:E; [|apply nth_error_None in E; lia]. cbn [bind ret_opt].
  destruct (@lset_total _ s i w ltac:(lia)) as (r & R). exists r. split; [assumption|]. apply lset_spec in R. destruct R as (_ & L' & _). congruence.
Qed.
Lemma lget_In {A} (l : list A) i v : lget l i = Ok v -> In v l.
Proof. unfold lget. destruct (nth_error l i) eqn:E; [|discriminate]. cbn. intro H. injection H as <-. exact (nth_error_In _ _ E). Qed.
Lemma lget_total {A} (l : list A) i : (i < List.length l)%nat -> exists v, lget l i = Ok v.
Proof. intro H. unfold lget. destruct (nth_error l i) as [v|] eqn:E; [exists v; reflexivity|apply nth_error_None in E; lia]. Qed.

Section Phases.
  Variables (x : list Qc) (fv : dict nat (list Qc)).
  Let good (n : nat) (pop : list (list Qc)) := List.length pop = n /\ Forall (bred x fv) pop.
  Lemma Forall_lset pop i ind pop' : Forall (bred x fv) pop -> bred x fv ind -> lset pop i ind = Ok pop' -> List.length pop' = List.length pop /\ Forall (bred x fv) pop'.
  Proof.
    intros F B H. split; [apply lset_spec in H; tauto|]. apply Forall_forall. intros y Y. destruct (lset_In _ _ _ _ H Y) as [->|I]; [assumption|]. rewrite Forall_forall in F. auto.
  Qed.
  Lemma mate_good d cxpb pop pop' : Forall (bred x fv) pop -> mate_phase d cxpb pop = Ok pop' -> good (List.length pop) pop'.
  Proof.
    intros F H. unfold mate_phase in H. revert H. apply (@foldM_inv _ _ (good (List.length pop))); [|split; [reflexivity|assumption]].
    intros s i s' I (L & G) E. destruct (qltb (e_cross d i) cxpb); [|injection E as <-; split; assumption].
    destruct (lget s (2 * i)) as [a|] eqn:A; [|discriminate]. cbn [bind] in E. destruct (lget s (2 * i + 1)) as [b|] eqn:B; [|discriminate]. cbn [bind] in E.
    apply lget_In in A. apply lget_In in B. assert (G' := G). rewrite Forall_forall in G'. apply G' in A. apply G' in B.
    destruct (two_point (e_cut1 d i) (e_cut2 d i) a b) as [[u v]|] eqn:T; [|discriminate]. cbn [bind fst snd] in E. apply (two_point_bred _ _ A B) in T. destruct T as (U & V).
    destruct (lset s (2 * i) u) as [s1|] eqn:S1; [|discriminate]. cbn [bind] in E. apply Forall_lset in S1; [|assumption|assumption]. destruct S1 as (L1 & F1).
    apply Forall_lset in E; [|assumption|assumption]. destruct E as (L2 & F2). split; [congruence|assumption].
  Qed.
  Lemma mutate_good d mutpb indpb pop pop' : Forall (bred x fv) pop -> mutate_phase fv d mutpb indpb pop = Ok pop' -> good (List.length pop) pop'.
  Proof.
    intros F H. unfold mutate_phase in H. revert H. apply (@foldM_inv _ _ (good (List.length pop))); [|split; [reflexivity|assumption]].
    intros s i s' I (L & G) E. destruct (qltb (e_mutate d i) mutpb); [|injection E as <-; split; assumption].
    destruct (lget s i) as [a|] eqn:A; [|discriminate]. cbn [bind] in E. apply lget_In in A. assert (G' := G). rewrite Forall_forall in G'. apply G' in A.
    destruct (mutate (e_gene d i) (e_value d i) fv indpb a) as [m|] eqn:M; [|discriminate]. cbn [bind] in E. apply (mutate_bred _ _ _ A) in M.
    apply Forall_lset in E; [|assumption|assumption]. destruct E as (L2 & F2). split; [congruence|assumption].
  Qed.
  Lemma mate_total d cxpb pop : (2 <= List.length x)%nat -> Forall (bred x fv) pop -> exists pop', mate_phase d cxpb pop = Ok pop'.
  Proof.
    intros W F. unfold mate_phase. destruct (@foldM_total _ _ (good (List.length pop)) (fun pop i =>
      if qltb (e_cross d i) cxpb then
        do a <- lget pop (2 * i); do b <- lget pop (2 * i + 1);
        do ab <- two_point (e_cut1 d i) (e_cut2 d i) a b;
        do pop1 <- lset pop (2 * i) (fst ab); lset pop1 (2 * i + 1) (snd ab)
      else Ok pop) (seq 0 (List.length pop / 2)) pop) as (r & R & _); [|split; [reflexivity|assumption]|exists r; exact R].
    intros s i I (L & G). apply in_seq in I. assert (K : (2 * i + 1 < List.length pop)%nat). { pose proof (Nat.div_mod (List.length pop) 2 ltac:(lia)). lia. }
    destruct (qltb (e_cross d i) cxpb); [|exists s; split; [reflexivity|split; assumption]].
    destruct (@lget_total _ s (2 * i) ltac:(lia)) as (a & A). destruct (@lget_total _ s (2 * i + 1) ltac:(lia)) as (b & B). rewrite A, B. cbn [bind].
    apply lget_In in A. apply lget_In in B. assert (G' := G). rewrite Forall_forall in G'. apply G' in A. apply G' in B.
    destruct (@two_point_total (e_cut1 d i) (e_cut2 d i) a b) as ((u & v) & T); [destruct A, B; congruence|destruct A; lia|]. rewrite T. cbn [bind fst snd]. apply (two_point_bred _ _ A B) in T. destruct T as (U & V).
    destruct (@lset_total _ s (2 * i) u ltac:(lia)) as (s1 & S1). rewrite S1. cbn [bind]. apply Forall_lset in S1; [|assumption|assumption]. destruct S1 as (L1 & F1).
    destruct (@lset_total _ s1 (2 * i + 1) v ltac:(lia)) as (s2 & S2). exists s2. split; [assumption|]. apply Forall_lset in S2; [|assumption|assumption]. destruct S2. split; [congruence|assumption].
  Qed.
  Lemma mutate_phase_total d mutpb indpb pop : covers fv (List.length x) -> Forall (bred x fv) pop -> exists pop', mutate_phase fv d mutpb indpb pop = Ok pop'.
  Proof.
    intros C F. unfold mutate_phase. destruct (@foldM_total _ _ (good (List.length pop)) (fun pop i =>
      if qltb (e_mutate d i) mutpb then
        do a <- lget pop i;
        do m <- mutate (e_gene d i) (e_value d i) fv indpb a;
        lset pop i m
      else Ok pop) (seq 0 (List.length pop)) pop) as (r & R & _); [|split; [reflexivity|assumption]|exists r; exact R].
    intros s i I (L & G). apply in_seq in I. destruct (qltb (e_mutate d i) mutpb); [|exists s; split; [reflexivity|split; assumption]].
    destruct (@lget_total _ s i ltac:(lia)) as (a & A). rewrite A. cbn [bind]. apply lget_In in A. assert (G' := G). rewrite Forall_forall in G'. apply G' in A.
    destruct (@mutate_total (e_gene d i) (e_value d i) fv indpb a) as (m & M & _); [destruct A as (-> & _); assumption|]. rewrite M. cbn [bind]. apply (mutate_bred _ _ _ A) in M.
    destruct (@lset_total _ s i m ltac:(lia)) as (s2 & S2). exists s2. split; [assumption|]. apply Forall_lset in S2; [|assumption|assumption]. destruct S2. split; [congruence|assumption].
  Qed.

  Variable evaluate : list Qc -> res fl.
  (** an individual with its fitness *)
  Definition scored_by (p : list Qc * fl) : Prop := bred x fv (fst p) /\ evaluate (fst p) = Ok (snd p).
  Lemma evaluated_good pop e : Forall (bred x fv) pop -> evaluated evaluate pop = Ok e -> List.length e = List.length pop /\ map fst e = pop /\ Forall scored_by e.
  Proof.
    intros F H. unfold evaluated in H. apply mapM_ok in H. induction H as [|i p pop e E H IH]; [splits; [reflexivity|reflexivity|constructor]|].
    inversion F as [|? ? Fi Fp]; subst. destruct (IH Fp) as (L & M & S). destruct (evaluate i) as [f|] eqn:Ei; [|discriminate]. cbn in E. injection E as <-.
    cbn. splits; [congruence|congruence|]. constructor; [split; assumption|assumption].
  Qed.
  Definition gen_step (rnd : nat -> ea_draws) (cxpb mutpb indpb : Qc) (ps : list (list Qc * fl) * list (list Qc * fl)) (g : nat) :=
        let pop := map fst (fst ps) in
        do sel <- mapM (fun i => lget pop (e_pick (rnd g) i mod List.length pop)) (seq 0 (List.length pop));
        do mated <- mate_phase (rnd g) cxpb sel;
        do mutated <- mutate_phase fv (rnd g) mutpb indpb mated;
        do e <- evaluated evaluate mutated;
        Ok (e, snd ps ++ e).
  Lemma selected_good (pick : nat -> nat) pop sel : Forall (bred x fv) pop ->
    mapM (fun i => lget pop (pick i mod List.length pop)) (seq 0 (List.length pop)) = Ok sel -> good (List.length pop) sel.
  Proof.
    intros F H. apply mapM_ok in H. split; [rewrite <- (Forall2_len H); apply seq_length|]. apply Forall_forall. intros y Y. rewrite Forall_forall in F. apply F.
    apply In_nth_error in Y. destruct Y as (j & Y). destruct (Forall2_nth_r H j Y) as (i & _ & E). exact (lget_In _ _ E).
  Qed.
  Let state_ok (n : nat) (ps : list (list Qc * fl) * list (list Qc * fl)) :=
    List.length (fst ps) = n /\ Forall scored_by (fst ps) /\ Forall scored_by (snd ps) /\ (n <= List.length (snd ps))%nat.
  Lemma scored_bred e : Forall scored_by e -> Forall (bred x fv) (map fst e).
  Proof. intro F. apply Forall_forall. intros y Y. apply in_map_iff in Y. destruct Y as (p & <- & P). rewrite Forall_forall in F. apply F. assumption. Qed.
  Lemma gen_step_good rnd cxpb mutpb indpb n ps g ps' : state_ok n ps -> gen_step rnd cxpb mutpb indpb ps g = Ok ps' -> state_ok n ps'.
  Proof.
    intros (L & F & S & N) H. unfold gen_step in H. cbv zeta in H. assert (B := scored_bred F).
    destruct (mapM _ (seq 0 (List.length (map fst (fst ps))))) as [sel|] eqn:E1; [|discriminate]. cbn [bind] in H. apply selected_good in E1; [|assumption]. destruct E1 as (L1 & F1).
    destruct (mate_phase (rnd g) cxpb sel) as [mated|] eqn:E2; [|discriminate]. cbn [bind] in H. apply mate_good in E2; [|assumption]. destruct E2 as (L2 & F2).
    destruct (mutate_phase fv (rnd g) mutpb indpb mated) as [mutated|] eqn:E3; [|discriminate]. cbn [bind] in H. apply mutate_good in E3; [|assumption]. destruct E3 as (L3 & F3).
    destruct (evaluated evaluate mutated) as [e|] eqn:E4; [|discriminate]. cbn [bind] in H. apply evaluated_good in E4; [|assumption]. destruct E4 as (L4 & _ & F4).
    injection H as <-. rewrite map_length in L1. split; [cbn [fst]; congruence|]. split; [assumption|]. cbn [snd]. split; [apply Forall_app; split; assumption|]. rewrite app_length. lia.
  Qed.
  Lemma ga_fit_eq rnd hall n initial hr cxpb mutpb indpb ngen : ga_fit fv evaluate rnd hall n initial hr cxpb mutpb indpb ngen =
    do e0 <- evaluated evaluate initial;
    if Nat.eqb (share_size n hr) 0 then Err IndexError else
    do ps <- foldM (gen_step rnd cxpb mutpb indpb) (e0, e0) (seq 0 ngen);
    do hof <- mapM (fun i => lget (snd ps) (i mod List.length (snd ps))) (firstn (share_size n hr) hall);
    Ok (fst ps, hof).
  Proof. reflexivity. Qed.
  Lemma repeat_bred n : Forall (bred x fv) (repeat x n).
  Proof. apply Forall_forall. intros y Y. apply repeat_spec in Y. subst y. split; [reflexivity|]. intros; left; assumption. Qed.
  Lemma ga_fit_good rnd hall n hr cxpb mutpb indpb ngen pop hof :
    ga_fit fv evaluate rnd hall n (repeat x n) hr cxpb mutpb indpb ngen = Ok (pop, hof) ->
    share_size n hr <> 0%nat /\ List.length pop = n /\ Forall scored_by pop /\ Forall scored_by hof /\ (List.length hof <= share_size n hr)%nat.
  Proof.
    intro H. rewrite ga_fit_eq in H. destruct (evaluated evaluate (repeat x n)) as [e0|] eqn:E0; [|discriminate]. cbn [bind] in H. destruct (Nat.eqb_spec (share_size n hr) 0) as [|NZ]; [discriminate|].
    apply evaluated_good in E0; [|apply repeat_bred]. destruct E0 as (L0 & _ & F0). rewrite repeat_length in L0.
    destruct (foldM (gen_step rnd cxpb mutpb indpb) (e0, e0) (seq 0 ngen)) as [ps|] eqn:E1; [|discriminate]. cbn [bind] in H.
    assert (G : state_ok n ps). { revert E1. apply (@foldM_inv _ _ (state_ok n)); [|unfold state_ok; cbn [fst snd]; splits; try assumption; rewrite L0; apply le_n]. intros s g s' _ P Q. exact (gen_step_good _ _ _ _ _ P Q). }
    destruct G as (L & F & S & _). destruct (mapM _ (firstn (share_size n hr) hall)) as [h|] eqn:E2; [|discriminate]. cbn [bind] in H. injection H as <- <-. splits; try assumption.
    - apply Forall_forall. intros y Y. apply mapM_ok in E2. rewrite Forall_forall in S. apply S. apply In_nth_error in Y. destruct Y as (j & Y). destruct (Forall2_nth_r E2 j Y) as (i & _ & E). exact (lget_In _ _ E).
    - apply mapM_ok in E2. rewrite <- (Forall2_len E2), firstn_length. lia.
  Qed.
  Lemma evaluated_total pop : (forall z, bred x fv z -> exists f, evaluate z = Ok f) -> Forall (bred x fv) pop -> exists e, evaluated evaluate pop = Ok e.
  Proof. intros T F. apply mapM_total. intros z Z. rewrite Forall_forall in F. destruct (T z (F z Z)) as (f & E). exists (z, f). cbv beta. rewrite E. reflexivity. Qed.
  Lemma ga_fit_total rnd hall n hr cxpb mutpb indpb ngen : (2 <= List.length x)%nat -> covers fv (List.length x) -> (0 < n)%nat -> share_size n hr <> 0%nat ->
    (forall z, bred x fv z -> exists f, evaluate z = Ok f) ->
    exists ph, ga_fit fv evaluate rnd hall n (repeat x n) hr cxpb mutpb indpb ngen = Ok ph.
  Proof.
    intros W C P NZ T. rewrite ga_fit_eq. destruct (@evaluated_total (repeat x n) T (repeat_bred n)) as (e0 & E0). rewrite E0. cbn [bind]. apply Nat.eqb_neq in NZ. rewrite NZ.
    apply evaluated_good in E0; [|apply repeat_bred]. destruct E0 as (L0 & _ & F0). rewrite repeat_length in L0.
    destruct (@foldM_total _ _ (state_ok n) (gen_step rnd cxpb mutpb indpb) (seq 0 ngen) (e0, e0)) as (ps & -> & G).
    - intros s g _ G. assert (Q : exists s', gen_step rnd cxpb mutpb indpb s g = Ok s'); [|destruct Q as (s' & Q); exists s'; split; [assumption|exact (gen_step_good _ _ _ _ _ G Q)]].
      destruct G as (L & F & S & N). unfold gen_step. cbv zeta. assert (B := scored_bred F).
      destruct (@mapM_total _ _ (fun i => lget (map fst (fst s)) (e_pick (rnd g) i mod List.length (map fst (fst s)))) (seq 0 (List.length (map fst (fst s))))) as (sel & E1).
      { intros i _. apply lget_total. apply Nat.mod_upper_bound. rewrite map_length. lia. }
      rewrite E1. cbn [bind]. apply selected_good in E1; [|assumption]. destruct E1 as (L1 & F1). destruct (@mate_total (rnd g) cxpb sel W F1) as (mated & E2). rewrite E2. cbn [bind]. apply mate_good in E2; [|assumption]. destruct E2 as (L2 & F2).
      destruct (@mutate_phase_total (rnd g) mutpb indpb mated C F2) as (mutated & E3). rewrite E3. cbn [bind]. apply mutate_good in E3; [|assumption]. destruct E3 as (L3 & F3).
      destruct (evaluated_total T F3) as (e & E4). rewrite E4. eexists. reflexivity.
    - unfold state_ok; cbn [fst snd]; splits; try assumption; rewrite L0; apply le_n.
    - cbn [bind]. destruct G as (_ & _ & _ & N). destruct (@mapM_total _ _ (fun i => lget (snd ps) (i mod List.length (snd ps))) (firstn (share_size n hr) hall)) as (h & ->).
      { intros i _. apply lget_total. apply Nat.mod_upper_bound. lia. }
      eexists. reflexivity.
  Qed.
End Phases.
