(** * Model of src/teacher/neighbors/_sampling_neighborhood.py (generation) and of the 'mixed' distance of
    src/teacher/metrics/_counterfactual.py *)
From Verif Require Import Prelude M_Fuzzy M_Discretize M_Rule M_FDT M_Neighborhood.
From Coq Require Import Reals.
Set Implicit Arguments.
Open Scope Qc_scope.

(** row[indexes] *)
Definition pick (row : list Qc) (idx : list nat) : res (list Qc) := mapM (fun i => ret_opt IndexError (nth_error row i)) idx.
(** metrics/_counterfactual.py:26-49 _continuous_distance with the metric 'euclidean' on two single rows: the mean of a
    1x1 matrix is its entry *)
Definition euclidean (a b : list Qc) : R := sqrt (qr (qsum (map2 (fun x y => (x - y) * (x - y)) a b))).
(** metrics/_counterfactual.py:52-64 _categorical_distance with the metric 'jaccard': scipy's cdist on numbers, the share of
    differing positions among those where a row is not zero, 0 if there is none *)
Definition jaccard (a b : list Qc) : Qc :=
  let nonzero := countb (fun p => negb (qeqb (fst p) 0 && qeqb (snd p) 0)) (zip a b) in
  let unequal := countb (fun p => negb (qeqb (fst p) (snd p))) (zip a b) in
  if Nat.eqb nonzero 0 then 0 else qn unequal / qn nonzero.
(** metrics/_counterfactual.py:67-78 _mixed_distance with ratio_cont=None, agg=None *)
Definition mixed_metric (continuous discrete : list nat) (a b : list Qc) : res R :=
  do ac <- pick a continuous; do bc <- pick b continuous;
  do ad <- pick a discrete; do bd <- pick b discrete;
  if Nat.eqb (List.length b) 0 then Err ZeroDivisionError else
  Ok (qr (qn (List.length continuous) / qn (List.length b)) * euclidean ac bc
      + qr (qn (List.length discrete) / qn (List.length b)) * qr (jaccard ad bd))%R.
(** metrics/_counterfactual.py:127-156 _closest_instance with distance='mixed'; [None] is the initial distance inf *)
Definition closest_mixed (continuous discrete : list nat) (instance : list Qc) (dataset : list (list Qc)) : res (list Qc) :=
  do best <- foldM (fun (best : list Qc * option R) row =>
      do d <- mixed_metric continuous discrete instance row;
      if match snd best with None => true | Some m => Rltb d m end && Rltb 0 d then Ok (row, Some d) else Ok best)
    ([], None) dataset;
  Ok (fst best).

(** the parameter neighbor_range: 'std', a float, or anything else *)
Inductive nrange := RStd | RFloat (q : Qc) | ROther.
(** population variance, the square of numpy's col.std(); NaN ([None]) on an empty column *)
Definition variance (col : list Qc) : option Qc :=
  match qmean col with
  | None => None
  | Some m => qmean (map (fun x => (x - m) * (x - m)) col)
  end.
(** _sampling_neighborhood.py:71-78: x < instance[i] + col_range and x > instance[i] - col_range; for the standard deviation
    the comparisons are made on the squares *)
Definition in_range (nr : nrange) (col : list Qc) : res (Qc -> Qc -> bool) :=
  match nr with
  | RStd => Ok (fun c x => match variance col with None => false | Some v => qltb ((x - c) * (x - c)) v end)
  | RFloat q =>
      if qltb 0 q && qltb q 1 then
        do hi <- qmaximum col; do lo <- qminimum col;
        Ok (fun c x => qltb x (c + (hi - lo) * q) && qltb (c - (hi - lo) * q) x)
      else Err ValueError
  | ROther => Err ValueError
  end.
(** _sampling_neighborhood.py:79-80, 83-84: dists = [d / sum(dists) for d in dists] *)
Definition weigh (col vals : list Qc) : list Qc * list Qc :=
  let counts := map (fun v => qn (countb (fun x => qeqb x v) col)) vals in
  (vals, map (fun d => d / qsum counts) counts).
(** _sampling_neighborhood.py:67-87 _generate_prob_dist(instance, cont_idx); X2E as the list of its columns; the dictionary with
    the keys 0, 1, ... is a list *)
Definition prob_dist (nr : nrange) (columns : list (list Qc)) (instance : list Qc) (cont : list nat) : res (list (list Qc * list Qc)) :=
  mapM (fun ic : nat * list Qc => let '(i, col) := ic in
      if memb i cont then
        do within <- in_range nr col;
        (* instance[i] is only read when there is a value to compare with *)
        if Nat.eqb (List.length col) 0 then Ok (weigh col []) else
        do c <- ret_opt IndexError (nth_error instance i);
        Ok (weigh col (filter (within c) (qunique col)))
      else Ok (weigh col (qunique col)))
    (enumerate columns).

Section Generate.
  (** the stream of random choices and the prediction of a single row *)
  Variables (rnd : nat -> nat) (bb : list Qc -> Z).
  (** np.random.choice(vals, p=dists): any of the values (all probabilities are positive); no value raises ValueError *)
  Definition choose (t : nat) (vp : list Qc * list Qc) : res Qc :=
    ret_opt ValueError (nth_error (fst vp) (rnd t mod List.length (fst vp))).
  (** _sampling_neighborhood.py:89-93 _get_instance_from_prob_dist; [t]: the number of choices made so far *)
  Definition draw (t : nat) (pd : list (list Qc * list Qc)) : res (list Qc) :=
    mapM (fun ivp : nat * (list Qc * list Qc) => choose (t + fst ivp) (snd ivp)) (enumerate pd).

  (** the generated rows and the number of rows of each class *)
  Definition gstate := (list (list Qc) * dict Z nat)%type.
  (** _sampling_neighborhood.py:116-119 and 121-124 *)
  Definition offer (size : nat) (s : gstate) (row : list Qc) : res gstate :=
    let '(rows, counts) := s in
    let c := bb row in
    do n <- ret_opt KeyError (dget c counts);
    if qltb (qn n) (qn size / qn (List.length counts)) then Ok (rows ++ [row], dset c (S n) counts) else Ok s.
  (** _sampling_neighborhood.py:111-126: the while loop; [tries]: the value of tries at the top of the loop *)
  Fixpoint rounds (fuel size tries : nat) (pd cpd : list (list Qc * list Qc)) (s : gstate) : res (nat * gstate) :=
    if Nat.ltb (List.length (fst s)) size then
      match fuel with
      | O => Err OutOfFuel
      | S fuel' =>
          let w := List.length pd in
          let t := (2 * tries * w)%nat in
          do i_neigh <- draw t pd;
          do c_neigh <- draw (t + w) cpd;
          do s1 <- offer size s i_neigh;
          do s2 <- offer size s1 c_neigh;
          if Nat.ltb (size * 100) (S tries) then Ok (S tries, s2) else rounds fuel' size (S tries) pd cpd s2
      end
    else Ok (tries, s).

  (** the parts of the dataset dictionary that are read: idx_features, continuous, discrete, the number of possible_outcomes, columns *)
  Record sdata := mkS { s_idx : dict nat string; s_continuous : list string; s_discrete : list string; s_outcomes : nat; s_columns : list string }.
  (** X2E.T for a matrix of [w] columns *)
  Definition transpose (w : nat) (X : list (list Qc)) : list (list Qc) := map (fun i => map (fun r => nth i r 0) X) (seq 0 w).
  Definition idx_of (names : list string) (d : sdata) : list nat := map fst (filter (fun kv => memb (snd kv) names) (s_idx d)).
  (** _sampling_neighborhood.py:95-129 _generate_neighborhood_fast; [w] is the number of columns of X2E.  A size below 0 behaves as 0 *)
  Definition generate_fast (fuel : nat) (nr : nrange) (d : sdata) (class_name : string) (w : nat) (X2E : list (list Qc))
      (instance : list Qc) (size : nat) : res table :=
    let cont := idx_of (s_continuous d) d in
    let disc := idx_of (s_discrete d) d in
    do pd <- prob_dist nr (transpose w X2E) instance cont;
    let target := bb instance in
    do closest <- closest_mixed cont disc instance (filter (fun r => negb (Z.eqb (bb r) target)) X2E);
    do cpd <- prob_dist nr (transpose w X2E) closest cont;
    do ts <- rounds fuel size 0 pd cpd ([], map (fun i => (Z.of_nat i, 0%nat)) (seq 0 (s_outcomes d)));
    let rows := fst (snd ts) ++ [instance] in
    let features := filter (fun c => negb (eqb c class_name)) (s_columns d) in
    (* np.array of rows of different lengths, or a number of columns other than the number of names *)
    if forallb (fun r => Nat.eqb (List.length r) (List.length features)) rows
    then Ok (mkTb features (map (map CNum) rows)) else Err ValueError.
  (** _sampling_neighborhood.py:131-132 _generate_neighborhood: _generate_prob_dist() lacks its two arguments *)
  Definition generate_slow : res table := Err TypeError.
  (** _sampling_neighborhood.py:150-153, 163: the choice of the method; 'slow' is the default *)
  Definition generate (method : string) (fuel : nat) (nr : nrange) (d : sdata) (class_name : string) (w : nat) (X2E : list (list Qc))
      (instance : list Qc) (size : nat) : res table :=
    if eqb method "slow"%string then generate_slow
    else if eqb method "fast"%string then generate_fast fuel nr d class_name w X2E instance size
    else Err KeyError.
End Generate.
