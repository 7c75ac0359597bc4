(** * C66-C68: the genetic algorithm and oversampling *)
From Verif Require Import Prelude M_Genetic S_Genetic P_Genetic P_Genetic2.
Set Implicit Arguments.
Open Scope string_scope. Open Scope list_scope. Open Scope Qc_scope.

(** C66: for every stream of random draws the population keeps its size and for every value the number of individuals at least that
    fit never decreases; after at least one round it is sorted by decreasing fitness *)
Theorem C66_population : forall (A : Type) (fitness : list A -> Qc) rnd init cx_prob cross_prob mut_prob mut_ext_prob fv k rounds final,
  genetic_algorithm fitness rnd init cx_prob cross_prob mut_prob mut_ext_prob fv k rounds = Ok final ->
  List.length final = List.length init /\
  (forall v, (at_least fitness v init <= at_least fitness v final)%nat) /\
  (forall a, In a init -> exists b, In b final /\ fitness a <= fitness b) /\
  ((0 < rounds)%nat -> StronglySorted (fun a b => fitness b <= fitness a) final).
Proof.
  intros A fitness rnd init cx cr mp me fv k rounds final H. apply ga_spec in H. destruct H as (L & C & _ & S). split; [assumption|]. split; [assumption|]. split; [|assumption].
  intros a I. specialize (C (fitness a)). unfold at_least in C. assert (F : In a (filter (fun p => qleb (fitness a) (fitness p)) init)) by (apply filter_In; split; [assumption|apply qleb_le, Qcle_refl]).
  destruct (filter (fun p => qleb (fitness a) (fitness p)) final) as [|b l] eqn:E; [destruct (filter _ init); [destruct F|cbn in C; lia]|].
  assert (I' : In b (b :: l)) by (left; reflexivity). rewrite <- E in I'. apply filter_In in I'. destruct I' as (I' & Q). exists b. split; [assumption|]. apply qleb_le. assumption.
Qed.
(** the replacement keeps exactly the fittest of old and new individuals; among equally fit ones the first, old before new *)
Theorem C66_replacement : forall (A : Type) (fitness : list A -> Qc) old new,
  exists rest, fittest fitness (old ++ new) (replacement fitness old new) rest /\ List.length (replacement fitness old new) = List.length old /\
    forall v, exists n, filter (fun a => qeqb (fitness a) v) (replacement fitness old new) = firstn n (filter (fun a => qeqb (fitness a) v) (old ++ new)).
Proof.
  intros A fitness old new. destruct (replacement_spec fitness old new) as (rest & F & L). exists rest. split; [assumption|]. split; [assumption|]. intro v. apply replacement_stable.
Qed.
(** it succeeds on individuals of equal length covering all features, with tournaments of at least one candidate *)
Theorem C66_succeeds : forall (A : Type) (fitness : list A -> Qc) rnd init cx_prob cross_prob mut_prob mut_ext_prob fv k rounds n,
  (forall i, In i init -> List.length i = n) -> (forall f, In f (dkeys fv) -> (f < n)%nat) -> (0 < k)%nat ->
  exists final, genetic_algorithm fitness rnd init cx_prob cross_prob mut_prob mut_ext_prob fv k rounds = Ok final /\ forall i, In i final -> List.length i = n.
Proof. intros A fitness rnd init cx cr mp me fv k rounds n W K P. exact (@ga_total A fitness init fv n rnd cx cr mp me k rounds W K P). Qed.

(** C67: crossover swaps the genes of some positions and keeps the others *)
Theorem C67_crossover : forall (A : Type) coin (first second : list A) prob new_first new_second,
  uniform_crossover coin first second prob = Ok (new_first, new_second) ->
  List.length new_first = List.length first /\ List.length new_second = List.length second /\
  forall j, (nth_error new_first j = nth_error first j /\ nth_error new_second j = nth_error second j /\ ((j < List.length first)%nat -> prob <= coin j)) \/
            (nth_error new_first j = nth_error second j /\ nth_error new_second j = nth_error first j /\ coin j < prob).
Proof.
  intros A coin first second prob nf ns H. apply crossover_spec in H. destruct H as (L1 & L2 & N). split; [assumption|]. split; [assumption|]. intro j. destruct (N j) as (N1 & N2). cbv zeta in N1, N2.
  destruct (Nat.ltb_spec j (List.length first)) as [L|L]; cbn [andb] in N1, N2.
  - destruct (qltb_spec (coin j) prob); [right|left]; auto.
  - left. split; [assumption|]. split; [assumption|]. intro. lia.
Qed.
Theorem C67_crossover_succeeds : forall (A : Type) coin (first second : list A) prob, List.length first = List.length second ->
  exists fs, uniform_crossover coin first second prob = Ok fs.
Proof. intros. apply crossover_total. assumption. Qed.
(** tournament selection returns, for each place, a fittest of its candidates *)
Theorem C67_tournament : forall (A : Type) (fitness : list A -> Qc) pick pop k sel, tournament_selection fitness pick pop k = Ok sel ->
  List.length sel = List.length pop /\
  forall i ind, nth_error sel i = Some ind -> In ind pop /\
    (exists j, (j < k)%nat /\ nth_error pop (pick i j mod List.length pop) = Some ind) /\
    forall j c, (j < k)%nat -> nth_error pop (pick i j mod List.length pop) = Some c -> fitness c <= fitness ind.
Proof. intros A fitness pick pop k sel H. exact (@tournament_spec A fitness pick pop k sel H). Qed.
(** mutation only replaces genes of known features whose coin falls below the probability, by values of their generators *)
Theorem C67_mutation : forall (A : Type) coin seed (fv : generators (A := A)) original prob r, NoDup (dkeys fv) ->
  informed_init coin seed fv original prob = Ok r ->
  List.length r = List.length original /\
  (forall j g, In (j, g) fv -> coin j < prob -> nth_error r j = Some (g (seed j))) /\
  (forall j, ~ In j (dkeys fv) \/ prob <= coin j -> nth_error r j = nth_error original j).
Proof.
  intros A coin seed fv original prob r N H. destruct (@informed_spec A coin seed fv original prob r N H) as (L & R). split; [assumption|]. split.
  - intros j g I C. rewrite R, (@dget_nodup _ _ _ j g fv N I). apply qltb_lt in C. rewrite C. reflexivity.
  - intros j [K|C]; rewrite R.
    + rewrite (proj2 (dget_None _ _) K). reflexivity.
    + destruct (dget j fv); [|reflexivity]. apply qltb_ge in C. rewrite C. reflexivity.
Qed.
(** every gene of the final population stems from the same position of an initial individual or from its feature's generator;
    without mutation, from an initial individual *)
Theorem C67_genes : forall (A : Type) (fitness : list A -> Qc) rnd init cx_prob cross_prob mut_prob mut_ext_prob fv k rounds final,
  genetic_algorithm fitness rnd init cx_prob cross_prob mut_prob mut_ext_prob fv k rounds = Ok final ->
  (forall ind, In ind final -> descends init fv ind) /\
  ((forall r i, 0 <= d_mutate (rnd r) i) -> mut_ext_prob <= 0 ->
   forall ind j x, In ind final -> nth_error ind j = Some x -> exists ind0, In ind0 init /\ nth_error ind0 j = Some x).
Proof.
  intros A fitness rnd init cx cr mp me fv k rounds final H. split; [apply ga_spec in H; apply H|].
  intros C M ind j x I Hx. rewrite ga_no_mutation in H. 2: { intros r i. specialize (C r i). qlra. }
  apply ga_spec in H. destruct H as (_ & _ & D & _). destruct (D ind I j x Hx) as [E|(g & s & [] & _)]. assumption.
Qed.

(** C68: oversampling keeps exactly the individuals fitter than the value below the last of the widest gaps; all of maximal fitness
    are kept unless all are equally fit, when none is *)
Theorem C68_oversample : forall (A : Type) (population halloffame : list (A * Qc)), (2 <= List.length population)%nat ->
  exists T result, get_oversample population halloffame = Ok result /\
    result = map fst (filter (fun p => qltb T (snd p)) (population ++ halloffame)) /\
    ((exists p q, In p population /\ In q population /\ snd p <> snd q) ->
       below_widest_gap (map snd population) T /\
       forall p, In p population -> (forall q, In q population -> snd q <= snd p) -> T < snd p) /\
    ((forall p q, In p population -> In q population -> snd p = snd q) ->
       (forall p, In p population -> snd p = T) /\ result = map fst (filter (fun p => qltb T (snd p)) halloffame)).
Proof.
  intros A pop hof L. destruct (oversample_spec pop hof L) as (T & E & N & Eq). exists T. eexists. split; [exact E|]. split; [rewrite filter_app, map_app; reflexivity|]. split.
  - intro D. specialize (N D). split; [assumption|]. intros p I M. destruct N as (T' & (IT & IT' & Lt & _) & _). apply in_map_iff in IT'. destruct IT' as (q & Q & Iq). specialize (M q Iq). rewrite Q in M. qlra.
  - intro Al. specialize (Eq Al). split; [assumption|]. assert (F : filter (fun p => qltb T (snd p)) pop = []); [|rewrite F; reflexivity].
    destruct (filter _ pop) as [|p l] eqn:F; [reflexivity|]. exfalso. assert (I : In p (p :: l)) by (left; reflexivity). rewrite <- F in I. apply filter_In in I. destruct I as (I & Q). apply qltb_lt in Q. rewrite (Eq p I) in Q. qlra.
Qed.
(** the threshold is determined *)
Theorem C68_threshold_unique : forall l T1 T2, below_widest_gap l T1 -> below_widest_gap l T2 -> T1 = T2.
Proof.
  intros l T1 T2 (U1 & N1 & M1) (U2 & N2 & M2). destruct (M1 _ _ N2) as (A1 & B1). destruct (M2 _ _ N1) as (A2 & B2). apply Qcle_antisym.
  - apply B2. apply Qcle_antisym; assumption.
  - apply B1. apply Qcle_antisym; assumption.
Qed.
Theorem C68_too_small : forall (A : Type) (population halloffame : list (A * Qc)), (List.length population < 2)%nat ->
  get_oversample population halloffame = Err ValueError.
Proof. intros. apply oversample_small. assumption. Qed.

(** examples *)
Definition gx_fit (i : list Qc) : Qc := nth 0 i 0 + nth 1 i 0.
Definition gx_init : list (list Qc) := [[1; 0]; [0; qz 2]; [0; 0]].
Definition gx_fv : generators (A := Qc) := [(0%nat, fun s => qn s); (1%nat, fun _ => qz 5)].
Definition gx_rnd (r : nat) : draws := mkD (fun i j => (i + j + r)%nat) (fun _ => 0) (fun i j => if Nat.even j then 0 else 1) (fun i => if Nat.even i then 0 else 1) (fun i f => if Nat.eqb f 1 then 0 else 1) (fun i f => 3%nat).
Example C66_instance : genetic_algorithm gx_fit gx_rnd gx_init (qc 1 2) (qc 1 2) (qc 1 2) (qc 1 2) gx_fv 2 1 = Ok [[0; qz 5]; [0; qz 5]; [1; qz 2]] /\
  genetic_algorithm gx_fit gx_rnd gx_init (qc 1 2) (qc 1 2) (qc 1 2) (qc 1 2) gx_fv 2 3 = Ok [[0; qz 5]; [0; qz 5]; [0; qz 5]].
Proof. split; qex. Qed.
Example C67_crossover_instance : uniform_crossover (fun j => if Nat.even j then 0 else 1) [1; qz 2; qz 3] [qz 4; qz 5; qz 6] (qc 1 2) = Ok ([qz 4; qz 2; qz 6], [1; qz 5; qz 3]).
Proof. qex. Qed.
Example C67_mutation_instance : NoDup (dkeys gx_fv) /\ informed_init (fun f => if Nat.eqb f 1 then 0 else 1) (fun _ => 3%nat) gx_fv [1; 0] (qc 1 2) = Ok [1; qz 5].
Proof. split; [repeat constructor; cbn; intuition discriminate|qex]. Qed.
Example C68_instance : get_oversample [("a", 1); ("b", qz 4); ("c", qz 2); ("d", qz 7)] [("h", qz 9); ("g", qz 4)] = Ok ["d"; "h"] /\
  get_oversample [("a", 1); ("b", 1)] [("h", qz 9)] = Ok ["h"] /\ below_widest_gap [1; qz 4; qz 2; qz 7] (qz 4).
Proof.
  split; [vm_compute; reflexivity|]. split; [vm_compute; reflexivity|]. exists (qz 7). split.
  - split; [right; left; reflexivity|]. split; [do 3 right; left; reflexivity|]. split; [vm_compute; reflexivity|].
    intros v [<-|[<-|[<-|[<-|[]]]]]; (left; vm_compute; discriminate) || (right; vm_compute; discriminate).
  - intros S S' (I & I' & Lt & B). assert (G : forall a b, In a [1; qz 4; qz 2; qz 7] -> In b [1; qz 4; qz 2; qz 7] -> a < b -> (forall v, In v [1; qz 4; qz 2; qz 7] -> v <= a \/ b <= v) -> b - a <= qz 7 - qz 4 /\ (b - a = qz 7 - qz 4 -> a <= qz 4)).
    { clear. intros a b Ha Hb L B. pose proof (B (qz 4) ltac:(cbn; tauto)) as B4. pose proof (B (qz 2) ltac:(cbn; tauto)) as B2.
      cbn in Ha, Hb. destruct Ha as [<-|[<-|[<-|[<-|[]]]]]; destruct Hb as [<-|[<-|[<-|[<-|[]]]]];
      try (exfalso; revert L; vm_compute; discriminate);
      try (exfalso; destruct B4 as [B4|B4]; revert B4; vm_compute; congruence);
      try (exfalso; destruct B2 as [B2|B2]; revert B2; vm_compute; congruence);
      (split; [vm_compute; discriminate|intros _; vm_compute; discriminate]). }
    apply G; assumption.
Qed.

Print Assumptions C66_population.
Print Assumptions C66_replacement.
Print Assumptions C66_succeeds.
Print Assumptions C67_crossover.
Print Assumptions C67_crossover_succeeds.
Print Assumptions C67_tournament.
Print Assumptions C67_mutation.
Print Assumptions C67_genes.
Print Assumptions C68_oversample.
Print Assumptions C68_threshold_unique.
Print Assumptions C68_too_small.
