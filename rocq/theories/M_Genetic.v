(** * Model of src/teacher/neighbors/genetic_algorithm.py and of get_oversample and mutate in gpdatagenerator.py *)
From Verif Require Import Prelude.
Set Implicit Arguments.
Open Scope Qc_scope.

(** l[i] = x *)
Fixpoint lset {A} (l : list A) (i : nat) (x : A) : res (list A) :=
  match l, i with
  | [], _ => Err IndexError
  | _ :: l', O => Ok (x :: l')
  | y :: l', S i' => do r <- lset l' i' x; Ok (y :: r)
  end.
Definition lget {A} (l : list A) (i : nat) : res A := ret_opt IndexError (nth_error l i).

Section Genetic.
  Context {A : Type}.
  (** feature_values: for each index a generator, called with the outcome of the random draw *)
  Definition generators := dict nat (nat -> A).
  (** the random draws of one round: candidate [j] of tournament [i]; the coins deciding on a crossover of [i] and [i+1], on the
      swap of a gene in it, on the mutation of [i] and of a gene of it; the draw of that gene's generator *)
  Record draws := mkD {
    d_pick : nat -> nat -> nat; d_cross : nat -> Qc; d_swap : nat -> nat -> Qc; d_mutate : nat -> Qc; d_gene : nat -> nat -> Qc; d_value : nat -> nat -> nat }.

  (** genetic_algorithm.py:24-30 random_init; [seed]: the draw for each feature *)
  Definition random_init (seed : nat -> nat) (fv : generators) : list A := map (fun kg : nat * (nat -> A) => snd kg (seed (fst kg))) fv.
  (** genetic_algorithm.py:33-40 informed_init *)
  Definition informed_init (coin : nat -> Qc) (seed : nat -> nat) (fv : generators) (original : list A) (prob : Qc) : res (list A) :=
    foldM (fun ind (kg : nat * (nat -> A)) =>
      if qltb (coin (fst kg)) prob then lset ind (fst kg) (snd kg (seed (fst kg))) else Ok ind) original fv.
  (** genetic_algorithm.py:43-52 uniform_crossover *)
  Definition uniform_crossover (coin : nat -> Qc) (first second : list A) (prob : Qc) : res (list A * list A) :=
    foldM (fun (fs : list A * list A) idx =>
      if qltb (coin idx) prob then
        do s <- lget second idx; do nf <- lset (fst fs) idx s;
        do f <- lget first idx; do ns <- lset (snd fs) idx f;
        Ok (nf, ns)
      else Ok fs) (first, second) (seq 0 (List.length first)).

  Variable fitness : list A -> Qc.
  (** genetic_algorithm.py:55-62 tournament_selection; np.random.choice(n, k) gives indexes below n; max() of no candidate raises ValueError *)
  Definition tournament_selection (pick : nat -> nat -> nat) (population : list (list A)) (k : nat) : res (list (list A)) :=
    mapM (fun i =>
      do candidates <- mapM (fun j => lget population (pick i j mod List.length population)) (seq 0 k);
      ret_opt ValueError (max_by (fun a b => qltb (fitness a) (fitness b)) candidates)) (seq 0 (List.length population)).
  (** genetic_algorithm.py:65-68 replacement *)
  Definition replacement (old new : list (list A)) : list (list A) :=
    firstn (List.length old) (sort_desc fitness (old ++ new)).

  (** genetic_algorithm.py:79-83: crossover of neighbours *)
  Definition crossover_phase (d : draws) (cx_prob cross_prob : Qc) (pop : list (list A)) : res (list (list A)) :=
    foldM (fun pop i =>
      if qltb (d_cross d i) cross_prob then
        do a <- lget pop i; do b <- lget pop (S i);
        do fs <- uniform_crossover (d_swap d i) a b cx_prob;
        do pop1 <- lset pop i (fst fs); lset pop1 (S i) (snd fs)
      else Ok pop) pop (seq 0 (List.length pop - 1)).
  (** genetic_algorithm.py:86-89: mutation *)
  Definition mutation_phase (d : draws) (mut_prob mut_ext_prob : Qc) (fv : generators) (pop : list (list A)) : res (list (list A)) :=
    foldM (fun pop i =>
      if qltb (d_mutate d i) mut_ext_prob then
        do a <- lget pop i;
        do m <- informed_init (d_gene d i) (d_value d i) fv a mut_prob;
        lset pop i m
      else Ok pop) pop (seq 0 (List.length pop)).
  (** genetic_algorithm.py:71-95 genetic_algorithm; [rnd i]: the draws of round [i] *)
  Definition genetic_algorithm (rnd : nat -> draws) (init : list (list A)) (cx_prob cross_prob mut_prob mut_ext_prob : Qc)
      (fv : generators) (k rounds : nat) : res (list (list A)) :=
    foldM (fun pop i =>
      do sel <- tournament_selection (d_pick (rnd i)) pop k;
      do crossed <- crossover_phase (rnd i) cx_prob cross_prob sel;
      do mutated <- mutation_phase (rnd i) mut_prob mut_ext_prob fv crossed;
      Ok (replacement pop mutated)) init (seq 0 rounds).
End Genetic.

(** gpdatagenerator.py:28-35 mutate: a dictionary of arrays of values, np.random.choice(values, 1)[0] *)
Definition mutate {A} (coin : nat -> Qc) (seed : nat -> nat) (fv : dict nat (list A)) (indpb : Qc) (individual : list A) : res (list A) :=
  foldM (fun ind i =>
    do values <- ret_opt KeyError (dget i fv);
    if qleb (coin i) indpb then
      do v <- ret_opt ValueError (nth_error values (seed i mod List.length values));
      lset ind i v
    else Ok ind) individual (seq 0 (List.length individual)).

(** gpdatagenerator.py:146-164 get_oversample; individuals with their fitness.  The maximum of no difference raises ValueError *)
Fixpoint diffs (l : list Qc) : list Qc :=
  match l with x :: ((y :: _) as l') => (y - x) :: diffs l' | _ => [] end.
(** np.max(np.argwhere(l == m)): the last position of [m] *)
Definition last_index (m : Qc) (l : list Qc) : res nat :=
  ret_opt ValueError (max_by Nat.ltb (map fst (filter (fun ix => qeqb (snd ix) m) (combine (seq 0 (List.length l)) l)))).
Definition get_oversample {A} (population halloffame : list (A * Qc)) : res (list A) :=
  let values := sort_asc (fun q : Qc => q) (map snd population) in
  let d := diffs values in
  do m <- qmaximum d;
  do i <- last_index m d;
  do thr <- ret_opt IndexError (nth_error values i);
  Ok (map fst (filter (fun p => qltb thr (snd p)) population) ++ map fst (filter (fun p => qltb thr (snd p)) halloffame)).
