(** * C117-C119: mutation and random individuals, genetic_neighborhood_old, dataframe2explain *)
From Verif Require Import Prelude M_Fuzzy M_Discretize M_Rule M_FDT M_ID3 M_Neighborhood M_Sampling M_Genetic M_Utils M_Lore M_Lore2.
From Verif Require Import P_FuzzyVar P_Metrics P_Factual P_Counterfactual P_Genetic P_Genetic2 P_Utils P_Utils2 P_Utils3 P_Utils4 P_Lore P_Lore2 P_Lore3 P_Lore4 Properties_Utils Properties_Utils3 Properties_Lore Properties_Lore2 Properties_Lore3.
From Verif Require Import S_Utils S_Genetic S_Lore S_Lore2 S_Lore3 S_Lore4.
Set Implicit Arguments.
Open Scope string_scope. Open Scope list_scope. Open Scope Qc_scope.

(** ** C117 *)
Lemma mutate_inv coin seed (fv : dict nat (list Qc)) p ind m : mutate coin seed fv p ind = Ok m ->
  List.length m = List.length ind /\ forall i, (i < List.length ind)%nat -> exists vs, dget i fv = Some vs /\
    (p < coin i -> nth_error m i = nth_error ind i) /\ (coin i <= p -> exists v, In v vs /\ nth_error m i = Some v).
Proof.
  intro H. unfold mutate in H.
  pose (Inv := fun (k : nat) (r : list Qc) => List.length r = List.length ind /\ (forall i, (k <= i)%nat -> nth_error r i = nth_error ind i) /\
     forall i, (i < k)%nat -> exists vs, dget i fv = Some vs /\ (p < coin i -> nth_error r i = nth_error ind i) /\ (coin i <= p -> exists v, In v vs /\ nth_error r i = Some v)).
  apply (@foldM_seq _ Inv _ (List.length ind) 0 ind m) in H.
  - destruct H as (L & _ & H). split; [exact L|]. intros i I. apply H. lia.
  - intros i r r' I (L & O & P) E. assert (Il : (i < List.length r)%nat) by lia. destruct (dget i fv) as [vs|] eqn:D; [|discriminate]. cbn [ret_opt bind] in E.
    destruct (qleb_spec (coin i) p) as [Q|Q].
    + destruct (nth_error vs (seed i mod List.length vs)) as [v|] eqn:V; [|discriminate]. cbn [ret_opt bind] in E. apply lset_spec in E. destruct E as (_ & L' & E2).
      split; [congruence|]. split; [intros j J; rewrite E2, (proj2 (Nat.eqb_neq j i)) by lia; apply O; lia|]. intros j J. rewrite E2. destruct (Nat.eqb_spec j i) as [->|N].
      * exists vs. split; [assumption|]. split; [intro; exfalso; qlra|]. intros _. exists v. split; [exact (nth_error_In _ _ V)|reflexivity].
      * apply P. lia.
    + injection E as <-. split; [assumption|]. split; [intros j J; apply O; lia|]. intros j J. destruct (Nat.eq_dec j i) as [->|N]; [|apply P; lia].
      exists vs. split; [assumption|]. split; [intros _; apply O; lia|intro; exfalso; qlra].
  - split; [reflexivity|]. split; [reflexivity|]. intros i I. lia.
Qed.
(** a mutated individual has the old gene where the coin is above the probability and a listed value of the position elsewhere *)
Theorem C117_mutate : forall coin seed fv p (ind m : list Qc), mutate coin seed fv p ind = Ok m ->
  List.length m = List.length ind /\ forall i v, nth_error m i = Some v ->
    (p < coin i -> nth_error ind i = Some v) /\ (coin i <= p -> exists vs, dget i fv = Some vs /\ In v vs).
Proof.
  intros coin seed fv p ind m H. apply mutate_inv in H. destruct H as (L & H). split; [exact L|]. intros i v V.
  assert (I : (i < List.length ind)%nat) by (rewrite <- L; apply nth_error_Some; congruence). destruct (H i I) as (vs & D & K & M). split.
  - intro Q. rewrite <- (K Q). exact V.
  - intro Q. destruct (M Q) as (w & W & E). exists vs. split; [exact D|]. congruence.
Qed.
(** it succeeds exactly if every position is listed, also those that do not change, with a value where one is needed *)
Theorem C117_mutate_defined : forall coin seed fv p (ind : list Qc), (exists m, mutate coin seed fv p ind = Ok m) <->
  forall i, (i < List.length ind)%nat -> exists vs, dget i fv = Some vs /\ (coin i <= p -> vs <> []).
Proof.
  intros coin seed fv p ind. split.
  - intros (m & H) i I. apply mutate_inv in H. destruct H as (_ & H). destruct (H i I) as (vs & D & _ & M). exists vs. split; [exact D|]. intros Q ->. destruct (M Q) as (v & [] & _).
  - intro C. unfold mutate. destruct (@foldM_total _ _ (fun m : list Qc => List.length m = List.length ind) (fun ind0 i =>
      do values <- ret_opt KeyError (dget i fv);
      if qleb (coin i) p then do v <- ret_opt ValueError (nth_error values (seed i mod List.length values)); lset ind0 i v else Ok ind0) (seq 0 (List.length ind)) ind) as (m & E & _); [|reflexivity|exists m; exact E].
    intros r i I L. apply in_seq in I. destruct (C i) as (vs & D & N); [lia|]. rewrite D. cbn [ret_opt bind]. destruct (qleb_spec (coin i) p) as [Q|Q]; [|exists r; split; [reflexivity|exact L]].
    destruct (nth_error vs (seed i mod List.length vs)) as [v|] eqn:V.
    + cbn [ret_opt bind]. destruct (@lset_total _ r i v) as (r' & E); [lia|]. exists r'. split; [exact E|]. apply lset_spec in E. destruct E as (_ & -> & _). exact L.
    + exfalso. apply nth_error_None in V. destruct vs as [|w vs]; [exact (N Q eq_refl)|]. assert (U := Nat.mod_upper_bound (seed i) (List.length (w :: vs))). cbn [List.length] in *. lia.
Qed.
(** probability 0 does not exclude a change: the coin may be 0 *)
Theorem C117_zero_probability_refuted : exists coin seed fv (ind m : list Qc), (forall i, 0 <= coin i /\ coin i < 1) /\ mutate coin seed fv 0 ind = Ok m /\ m <> ind.
Proof.
  exists (fun _ => 0), (fun _ => 0%nat), [(0%nat, [1])], [0], [1]. split; [intro; split; [apply Qcle_refl|reflexivity]|]. split; [reflexivity|discriminate].
Qed.
(** a random individual: one listed value per entry, in the order of the dictionary *)
Theorem C117_random_init : forall seed fv ind, gp_random_init seed fv = Ok ind ->
  List.length ind = List.length fv /\ forall i k vs, nth_error fv i = Some (k, vs) -> exists v, nth_error ind i = Some v /\ In v vs.
Proof.
  intros seed fv ind H. unfold gp_random_init in H. split; [exact (mapM_length _ _ H)|]. intros i k vs F. apply mapM_ok in H. destruct (Forall2_nth H i F) as (v & V & E).
  cbn [fst snd] in E. destruct (nth_error vs (seed k mod List.length vs)) as [w|] eqn:W; [|discriminate]. injection E as ->. exists v. split; [exact V|exact (nth_error_In _ _ W)].
Qed.
Theorem C117_random_init_total : forall seed fv, (exists ind, gp_random_init seed fv = Ok ind) <-> forall k vs, In (k, vs) fv -> vs <> [].
Proof.
  intros seed fv. split.
  - intros (ind & H) k vs I ->. apply In_nth_error in I. destruct I as (i & I). destruct (C117_random_init _ _ H) as (_ & Q). destruct (Q _ _ _ I) as (v & _ & []).
  - intro N. apply mapM_total. intros (k & vs) I. cbn [fst snd]. destruct (nth_error vs (seed k mod List.length vs)) as [w|] eqn:W; [exists w; reflexivity|].
    exfalso. apply nth_error_None in W. assert (NE := N k vs I). destruct vs as [|u vs]; [congruence|]. assert (U := Nat.mod_upper_bound (seed k) (List.length (u :: vs))). cbn [List.length] in *. lia.
Qed.
(** from the values of a table it makes a row of the table's features *)
Theorem C117_random_row : forall normal X columns cls discrete continuous size fv seed ind, NoDup columns ->
  calculate_feature_values normal X columns cls discrete continuous size = Ok fv -> gp_random_init seed fv = Ok ind ->
  List.length ind = (List.length columns - 1)%nat /\
  forall i c v, nth_error (filter (fun c => negb (eqb c cls)) columns) i = Some c -> nth_error ind i = Some v ->
    (exists vs, dget i fv = Some vs /\ listed X discrete continuous size fv i c vs /\ In v vs) /\ (In c discrete -> exists row, In row X /\ nth_error row i = Some v).
Proof.
  intros normal X columns cls discrete continuous size fv seed ind N C R. destruct (@C92_feature_values normal X columns cls discrete continuous size fv N C) as (_ & K & P). destruct (C117_random_init _ _ R) as (L & Q).
  assert (LF : List.length fv = (List.length columns - 1)%nat) by (rewrite <- (seq_length (List.length columns - 1) 0), <- K; unfold dkeys; rewrite map_length; reflexivity).
  split; [congruence|]. intros i c v Ci V. destruct (P i c Ci) as (vs & D & LI).
  assert (F : nth_error fv i = Some (i, vs)).
  { assert (I : (i < List.length fv)%nat) by (rewrite <- L; apply nth_error_Some; congruence). destruct (nth_error fv i) as [(k & ws)|] eqn:F; [|apply nth_error_None in F; lia].
    assert (Kk : nth_error (dkeys fv) i = Some k) by (unfold dkeys; rewrite nth_error_map, F; reflexivity). rewrite K in Kk. rewrite nth_error_nth' with (d := 0%nat) in Kk by (rewrite seq_length; lia). rewrite seq_nth in Kk by lia. injection Kk as <-.
    assert (D' : dget i fv = Some ws) by (apply dget_nodup; [rewrite K; apply seq_NoDup|exact (nth_error_In _ _ F)]). congruence. }
  destruct (Q _ _ _ F) as (w & W & I). assert (w = v) by congruence. subst w. split; [exists vs; auto|]. intro Dc. destruct LI as (values & CV & A & _). destruct (A Dc) as (_ & IN). apply IN in I.
  apply In_nth_error in I. destruct I as (r & I). unfold column_values in CV. assert (E := f_equal (fun l => nth_error l r) CV). cbn beta in E. rewrite !nth_error_map, I in E. destruct (nth_error X r) as [row|] eqn:XR; [|discriminate].
  exists row. split; [exact (nth_error_In _ _ XR)|]. cbn in E. congruence.
Qed.
(** the keys do not count: with the entries in another order the genes are in that order *)
Theorem C117_order_refuted : exists seed fv ind, gp_random_init seed fv = Ok ind /\ NoDup (dkeys fv) /\ exists i v vs, nth_error ind i = Some v /\ dget i fv = Some vs /\ ~ In v vs.
Proof.
  exists (fun _ => 0%nat), [(1%nat, [1]); (0%nat, [0])], [1; 0]. split; [reflexivity|]. split; [repeat constructor; cbn; [intros [H|[]]; discriminate|intros []]|].
  exists 0%nat, 1, [0]. split; [reflexivity|]. split; [reflexivity|]. intros [H|[]]. discriminate.
Qed.
Print Assumptions C117_mutate. Print Assumptions C117_mutate_defined. Print Assumptions C117_zero_probability_refuted. Print Assumptions C117_random_init.
Print Assumptions C117_random_init_total. Print Assumptions C117_random_row. Print Assumptions C117_order_refuted.
Example C117_instance : mutate (fun i => if Nat.eqb i 0 then 0 else 1) (fun _ => 4%nat) [(0%nat, [1; qz 3; qz 5]); (1%nat, [1])] (qc 1 2) [qz 7; qz 8] = Ok [qz 3; qz 8] /\
  gp_random_init (fun k => k) [(0%nat, [1; qz 3]); (1%nat, [1; qz 2; qz 4])] = Ok [1; qz 2].
Proof. split; reflexivity. Qed.

(** ** C118 *)
Lemma old_inv bb cls ds fv rnd hall x df Z : genetic_neighborhood_old bb cls ds fv rnd hall x = Ok (df, Z) <->
  exists discrete, list_remove cls (ds_discrete ds) = Ok discrete /\
  generate_data bb (lore_distance cls ds discrete) (ds_idx ds) fv rnd hall x (NDict [("ss", qc 1 2); ("sd", qc 1 2)]) 1000 (qc 1 10) (qc 1 2) (qc 1 2) 1 0 (qc 1 2) (qc 1 5) 10 = Ok Z /\
  explain_frame bb ds Z = Ok df.
Proof.
  unfold genetic_neighborhood_old. split.
  - intro H. destruct (list_remove cls (ds_discrete ds)) as [discrete|]; [|discriminate]. cbn [bind] in H. exists discrete. split; [reflexivity|].
    match type of H with bind ?r _ = _ => destruct r as [Z0|] eqn:E; [|discriminate] end. cbn [bind] in H.
    destruct (explain_frame bb ds Z0) as [df0|] eqn:X; [|discriminate]. cbn [bind] in H. assert (Q1 : df0 = df) by congruence. assert (Q2 : Z0 = Z) by congruence. subst df0 Z0. split; [reflexivity|exact X].
  - intros (discrete & R & G & E). rewrite R. cbn [bind]. rewrite G. cbn [bind]. rewrite E. reflexivity.
Qed.
(** with the same draws it returns what genetic_neighborhood returns for 1000 individuals, and the neighbourhoods of a single outcome besides *)
Theorem C118_agrees : forall bb argsort cls ds fv rnd hall dfZ x df Z,
  genetic_neighborhood bb argsort cls ds fv rnd hall dfZ x 1000 = Ok (df, Z) <->
  genetic_neighborhood_old bb cls ds fv rnd hall x = Ok (df, Z) /\ exists u v, In u Z /\ In v Z /\ bb u <> bb v.
Proof.
  intros bb argsort cls ds fv rnd hall dfZ x df Z. split.
  - intro H. split; [|exact (proj1 (@C93_two_outcomes _ _ _ _ _ _ _ _ _ _ _ _ H))]. apply genetic_inv in H. destruct H as (discrete & R & G & _ & E). apply old_inv. exists discrete. auto.
  - intros (H & u & v & U & V & N). apply old_inv in H. destruct H as (discrete & R & G & E). unfold genetic_neighborhood. rewrite R. cbn [bind]. rewrite G. cbn [bind].
    destruct (Nat.eqb_spec (List.length (zunique (map bb Z))) 1) as [L|L].
    + exfalso. assert (IN : forall c, In c (zunique (map bb Z)) <-> In c (map bb Z)) by (intro c; apply zunique_In).
      assert (IU := proj2 (IN (bb u)) (in_map bb _ _ U)). assert (IV := proj2 (IN (bb v)) (in_map bb _ _ V)).
      clear - L IU IV N. destruct (zunique (map bb Z)) as [|c [|c' l]]; try discriminate. destruct IU as [E1|[]], IV as [E2|[]]. congruence.
    + cbn [bind]. rewrite E. reflexivity.
Qed.
Theorem C118_rows : forall bb cls features ds fv rnd hall x df Z, lore_dataset cls features ds ->
  genetic_neighborhood_old bb cls ds fv rnd hall x = Ok (df, Z) -> Z <> [] /\ (forall z, In z Z -> bred x fv z) /\ dkeys df = cls :: features /\ labelled bb cls ds df Z.
Proof.
  intros bb cls features ds fv rnd hall x df Z LD H. apply old_inv in H. destruct H as (discrete & R & G & E). apply C91_rows in G. destruct G as (NE & G & EZ & P).
  split; [exact NE|]. split; [intros z I; rewrite EZ in I; rewrite !in_app_iff in I; destruct I as [I|[I|[I|I]]]; exact (proj1 (proj2 (P _) z I))|].
  assert (D := LD). destruct D as (C & NC & ND & _). split; [rewrite <- C; exact (proj2 (@explain_rect bb ds _ df NC ND E))|]. apply (@labelled_all bb cls features); [exact LD| |exact E]. apply list_remove_filter in R; [tauto|exact ND].
Qed.
(** a black box that always answers the same may get a neighbourhood, where genetic_neighborhood raises *)
Definition old_ds : dataset := mkDs ["cls"; "a"; "b"; "c"] [CStr "no"; CStr "yes"] [("cls", "string"); ("a", "double"); ("b", "double"); ("c", "double")] ["cls"; "a"] ["b"; "c"]
  [(0%nat, "a"); (1%nat, "b"); (2%nat, "c")] [("cls", [CStr "no"; CStr "yes"]); ("a", [CNum 0; CNum 1])] [] [].
Definition old_fv : dict nat (list Qc) := [(0%nat, [0; 1]); (1%nat, [0; 1]); (2%nat, [1; qz 2])].
Definition old_rnd (run gen : nat) : ea_draws :=
  mkE (fun i => i) (fun _ => 1) (fun _ => 0%nat) (fun _ => 0%nat) (fun i => if Nat.eqb i 1 then 0 else 1) (fun _ j => if Nat.eqb j 0 then 0 else 1) (fun _ _ => 1%nat).
Definition old_hall (run : nat) : list nat := [0%nat].
Theorem C118_one_outcome_refuted : exists bb cls ds fv rnd hall x df Z, genetic_neighborhood_old bb cls ds fv rnd hall x = Ok (df, Z) /\ (forall z, bb z = bb x) /\
  forall argsort dfZ r, genetic_neighborhood bb argsort cls ds fv rnd hall dfZ x 1000 <> Ok r.
Proof.
  assert (E : match genetic_neighborhood_old (fun _ => 1%Z) "cls" old_ds old_fv old_rnd old_hall [0; 0; 1] with Ok _ => true | Err _ => false end = true) by (vm_compute; reflexivity).
  destruct (genetic_neighborhood_old (fun _ => 1%Z) "cls" old_ds old_fv old_rnd old_hall [0; 0; 1]) as [(df & Z)|] eqn:H; [|discriminate].
  exists (fun _ => 1%Z), "cls", old_ds, old_fv, old_rnd, old_hall, [0; 0; 1], df, Z. split; [exact H|]. split; [reflexivity|].
  intros argsort dfZ (df' & Z') Q. apply C118_agrees in Q. destruct Q as (_ & u & v & _ & _ & N). apply N. reflexivity.
Qed.
Print Assumptions C118_agrees. Print Assumptions C118_rows. Print Assumptions C118_one_outcome_refuted.

(** ** C119 *)
Lemma pyget_spec {A} (l : list A) i x : pyget l i = Ok x <-> at_index l i x.
Proof.
  unfold pyget, at_index, lget. destruct (Z.ltb_spec i 0) as [L|L].
  - destruct (Z.ltb_spec (i + Z.of_nat (List.length l)) 0) as [M|M].
    + split; [discriminate|]. intros [(Q & _)|(_ & before & after & -> & E)]; [lia|]. rewrite app_length in M. cbn [List.length] in M. lia.
    + split.
      * intro H. destruct (nth_error l (Z.to_nat (i + Z.of_nat (List.length l)))) as [y|] eqn:N; [|discriminate]. injection H as <-. right. split; [exact L|].
        apply nth_error_split in N. destruct N as (before & after & -> & E). exists before, after. split; [reflexivity|]. rewrite app_length in E, M. cbn [List.length] in E, M. lia.
      * intros [(Q & _)|(_ & before & after & -> & E)]; [lia|]. rewrite app_length. cbn [List.length]. replace (Z.to_nat (i + Z.of_nat (List.length before + S (List.length after)))) with (List.length before) by lia.
        rewrite nth_error_app2 by lia. rewrite Nat.sub_diag. reflexivity.
  - split.
    + intro H. left. split; [lia|]. destruct (nth_error l (Z.to_nat i)); [|discriminate]. cbn in H. congruence.
    + intros [(_ & ->)|(Q & _)]; [reflexivity|lia].
Qed.
(** the record is the row at the index; the table lists all rows with their predicted outcomes in the class column *)
Theorem C119_table : forall bb cls features ds X2E i df x, lore_dataset cls features ds -> In cls (ds_discrete ds) -> dataframe2explain bb ds X2E i = Ok (df, x) ->
  at_index X2E i x /\ dkeys df = cls :: features /\ rectangular (List.length X2E) df /\ labelled bb cls ds df X2E /\
  forall r z j c q, nth_error X2E r = Some z -> nth_error features j = Some c -> nth_error z j = Some q ->
    (In c (ds_discrete ds) -> exists classes k v, dget c (ds_encoders ds) = Some classes /\ truncated q (Z.of_nat k) /\ nth_error classes k = Some v /\ value_at df c r = Some v) /\
    (~ In c (ds_discrete ds) -> exists t w, dget c (ds_types ds) = Some t /\ stored t q w /\ value_at df c r = Some (CNum w)).
Proof.
  intros bb cls features ds X2E i df x LD IC H. unfold dataframe2explain in H. destruct (pyget X2E i) as [x0|] eqn:P; [|discriminate]. cbn [bind] in H.
  destruct (explain_frame bb ds X2E) as [df0|] eqn:E; [|discriminate]. cbn [bind] in H. assert (Q1 : df0 = df) by congruence. assert (Q2 : x0 = x) by congruence. subst df0 x0. clear H.
  assert (D := LD). destruct D as (C & NC & ND & _). destruct (@explain_rect bb ds _ df NC ND E) as (R & K).
  split; [apply pyget_spec; exact P|]. split; [congruence|]. split; [exact R|]. split; [exact (@labelled_all bb cls features ds X2E df LD IC E)|].
  intros r z j c q Zr Fj Zj. unfold explain_frame in E. destruct (@C75_columns _ _ _ _ _ _ _ NC ND E) as (_ & _ & G). destruct (G (S j) c) as (col & t & Dc & Dt & Lc & V); [rewrite C; exact Fj|].
  assert (Lr : (r < List.length (map bb X2E))%nat) by (rewrite map_length; apply nth_error_Some; congruence). destruct (V r Lr) as (q' & S & V1 & V2 & V3).
  assert (q' = q) by (cbn [source] in S; rewrite Zr, Zj in S; congruence). subst q'. split.
  - intro I. destruct (V1 I) as (classes & k & De & Lk & T & W). destruct (nth_error classes k) as [v|] eqn:Nk; [|apply nth_error_None in Nk; lia].
    exists classes, k, v. split; [exact De|]. split; [exact T|]. split; [exact Nk|]. unfold value_at. rewrite Dc. exact W.
  - intro I. unfold value_at. rewrite Dc. destruct (string_dec t "integer") as [->|Nt].
    + destruct (V2 I eq_refl) as (z0 & T & W). exists "integer", (qz z0). split; [exact Dt|]. split; [|exact W]. split; [intros _; exists z0; auto|congruence].
    + exists t, q. split; [exact Dt|]. split; [split; [congruence|reflexivity]|]. exact (V3 I Nt).
Qed.
(** an index out of range is refused whatever the rest *)
Theorem C119_out_of_range : forall bb ds X2E i, (i < - Z.of_nat (List.length X2E) \/ Z.of_nat (List.length X2E) <= i)%Z -> dataframe2explain bb ds X2E i = Err IndexError.
Proof.
  intros bb ds X2E i H. unfold dataframe2explain, pyget, lget. destruct (Z.ltb_spec i 0) as [L|L].
  - destruct (Z.ltb_spec (i + Z.of_nat (List.length X2E)) 0) as [M|M]; [reflexivity|lia].
  - destruct (nth_error X2E (Z.to_nat i)) as [y|] eqn:N; [|reflexivity]. exfalso. assert (Q : (Z.to_nat i < List.length X2E)%nat) by (apply nth_error_Some; congruence). lia.
Qed.
(** for a prepared data set and a black box that is right on it, the table is the one the data set was made from *)
Theorem C119_gives_table_back : forall sl dt n df cls features discrete D, set_listing sl -> typed dt df -> rectangular n df -> dkeys df = cls :: features ->
  incl discrete (dkeys df) -> generate_dataset sl dt df (dkeys df) cls discrete = Ok D ->
  exists X y, ds_X D = map (map CNum) X /\ ds_y D = map (fun c => CNum (qz c)) y /\ List.length X = n /\
    forall bb i, map bb X = y -> (- Z.of_nat n <= i < Z.of_nat n)%Z -> exists x, dataframe2explain bb D X i = Ok (df, x) /\ at_index X i x.
Proof.
  intros sl dt n df cls features discrete D SL T R K I H. destruct (@C86_round_trip sl dt n df cls features discrete D SL T R K I H) as (X & y & EX & Ey & B).
  assert (LX : List.length X = n).
  { destruct (@C86_describes sl dt n df (dkeys df) cls discrete D) as (L & _); auto; [exact (proj1 R)|]. rewrite EX, map_length in L. exact L. }
  exists X, y. split; [exact EX|]. split; [exact Ey|]. split; [exact LX|]. intros bb i E Ri. unfold dataframe2explain, explain_frame. rewrite E, B. cbn [bind].
  assert (P : exists x, pyget X i = Ok x).
  { unfold pyget, lget. destruct (Z.ltb_spec i 0) as [L|L].
    - destruct (Z.ltb_spec (i + Z.of_nat (List.length X)) 0) as [M|M]; [lia|]. destruct (nth_error X (Z.to_nat (i + Z.of_nat (List.length X)))) as [x|] eqn:N; [exists x; reflexivity|apply nth_error_None in N; lia].
    - destruct (nth_error X (Z.to_nat i)) as [x|] eqn:N; [exists x; reflexivity|apply nth_error_None in N; lia]. }
  destruct P as (x & P). exists x. rewrite P. cbn [bind]. split; [reflexivity|]. apply pyget_spec. exact P.
Qed.
Print Assumptions C119_table. Print Assumptions C119_out_of_range. Print Assumptions C119_gives_table_back.
Example C119_instance : exists df, dataframe2explain lx_bb lx_ds lx_X (-1) = Ok (df, [qz 3; qz 4]) /\ dget "cls" df = Some [CStr "no"; CStr "yes"; CStr "yes"] /\ lore_dataset "cls" ["a"; "b"] lx_ds /\ In "cls" (ds_discrete lx_ds).
Proof.
  eexists. split; [vm_compute; reflexivity|]. split; [reflexivity|]. split; [|left; reflexivity]. split; [reflexivity|].
  repeat split; repeat constructor; cbn; intuition discriminate.
Qed.
