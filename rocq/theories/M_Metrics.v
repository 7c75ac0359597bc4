(** * Model of src/teacher/metrics/_rule.py and _counterfactual.py *)
From Verif Require Import Prelude M_Fuzzy M_Rule.
Set Implicit Arguments.
Open Scope Qc_scope.

(** {feature: {set: degrees of all rows}} *)
Definition fdata := dict string (dict string (list Qc)).
(** fuzzy_dataset[feat][val]: a set name is looked up, a list of names (multi-value rules) is
    unhashable *)
Definition set_lookup (d : dict string (list Qc)) (v : string) : res (list Qc) := ret_opt KeyError (dget v d).
Definition set_lookup_multi (d : dict string (list Qc)) (v : list string) : res (list Qc) := Err TypeError.

(** np.minimum of two arrays; numpy would broadcast an array of length 1, not modelled *)
Definition np_minimum (a b : list Qc) : res (list Qc) :=
  if Nat.eqb (List.length a) (List.length b) then Ok (map2 qmin a b) else Err ValueError.
(** metrics/_rule.py:13-21 _get_covered_instances *)
Definition data_length (ds : fdata) : res nat :=
  do first <- ret_opt IndexError (nth_error ds 0);
  do col <- ret_opt IndexError (nth_error (snd first) 0);
  Ok (List.length (snd col)).
Definition covered_instances {V} (look : dict string (list Qc) -> V -> res (list Qc))
    (r : rule V) (ds : fdata) (threshold : Qc) : res (list bool * nat) :=
  do n <- data_length ds;
  do mu <- foldM (fun mu fv =>
      do sets <- ret_opt KeyError (dget (fst fv) ds);
      do col <- look sets (snd fv);
      np_minimum mu col) (repeat 1 n) (r_ant r);
  Ok (map (fun m => qltb threshold m) mu, n).
(** metrics/_rule.py:24-29 _get_fuzzy_coverage *)
Definition fuzzy_coverage {V} (look : dict string (list Qc) -> V -> res (list Qc))
    (rules : list (rule V)) (ds : fdata) (threshold : Qc) : res (list bool * nat) :=
  do r0 <- ret_opt IndexError (nth_error rules 0);
  do c0 <- covered_instances look r0 ds threshold;
  do c <- foldM (fun c r =>
      do cr <- covered_instances look r ds threshold;
      Ok (map2 andb c (fst cr))) (fst c0) rules;
  Ok (c, snd c0).
Definition count_true (c : list bool) : nat := countb (fun b => b) c.
(** numpy division of counts: 0/0 is NaN ([None]) with a warning *)
Definition np_ratio (a b : nat) : option Qc := if Nat.eqb b 0 then None else Some (qn a / qn b).
(** metrics/_rule.py:32-54 coverage *)
Definition coverage {V} look (rules : list (rule V)) (ds : fdata) (threshold : Qc) : res (option Qc) :=
  do c <- fuzzy_coverage look rules ds threshold; Ok (np_ratio (count_true (fst c)) (snd c)).
(** metrics/_rule.py:58-83 precision; [&] of arrays of different lengths raises ValueError
    (length 1 would be broadcast, not modelled) *)
Definition precision {V} look (rules : list (rule V)) (ds : fdata) (y : list Z) (threshold : Qc) : res (option Qc) :=
  do c <- fuzzy_coverage look rules ds threshold;
  do r0 <- ret_opt IndexError (nth_error rules 0);
  if negb (Nat.eqb (List.length (fst c)) (List.length y)) then Err ValueError else
  Ok (np_ratio (count_true (map2 andb (fst c) (map (fun k => Z.eqb k (r_cons r0)) y))) (count_true (fst c))).
(** metrics/_rule.py:86-102 fidelity; comparing arrays of different lengths is an error in
    current numpy (a deprecation warning and False before 1.25) *)
Definition fidelity (y y_local : list Z) : res (option Qc) :=
  if negb (Nat.eqb (List.length y) (List.length y_local)) then Err ValueError else
  Ok (np_ratio (count_true (map2 Z.eqb y y_local)) (List.length y)).
(** y[mask] with a boolean mask *)
Definition select {A} (mask : list bool) (l : list A) : res (list A) :=
  if Nat.eqb (List.length mask) (List.length l) then Ok (map snd (filter fst (zip mask l))) else Err IndexError.
(** metrics/_rule.py:105-132 rule_fidelity *)
Definition rule_fidelity {V} look (y y_local : list Z) (ds : fdata) (rules : list (rule V)) (threshold : Qc) : res (option Qc) :=
  do c <- fuzzy_coverage look rules ds threshold;
  do a <- select (fst c) y;
  do b <- select (fst c) y_local;
  Ok (np_ratio (count_true (map2 Z.eqb a b)) (count_true (fst c))).

(* ------------------------------------------------------------------ *)
(** abs(a - b) on two cells; text cannot be subtracted *)
Definition cell_diff (a b : cell) : res Qc :=
  match a, b with CNum x, CNum y => Ok (qabs (x - y)) | _, _ => Err TypeError end.
(** a / b on Python numbers (numpy floats would give inf for b = 0) *)
Definition pdiv (a b : Qc) : res Qc := if qeqb b 0 then Err ZeroDivisionError else Ok (a / b).
Definition neq_cell (a b : cell) : nat := if eqb a b then 0 else 1.
(** metrics/_counterfactual.py:81-118 _distance ('moth') *)
Definition moth (a b : list cell) (continuous discrete : list nat) (mad : dict nat Qc) : res Qc :=
  do cd <- foldM (fun (acc : Qc * nat) (ip : nat * (cell * cell)) =>
      let '(i, (x, x')) := ip in
      if memb i continuous then
        do d <- cell_diff x x';
        if qeqb d 0 then Ok acc else
        do m <- ret_opt KeyError (dget i mad);
        do q <- pdiv d m;
        Ok (fst acc + q, snd acc)
      else Ok (fst acc, (snd acc + neq_cell x x')%nat)) (0, 0%nat) (enumerate (zip a b));
  do c <- (if qeqb (fst cd) 0 then Ok 0 else pdiv (fst cd) (qn (List.length continuous)));
  do d <- (if Nat.eqb (snd cd) 0 then Ok 0 else pdiv (qn (snd cd)) (qn (List.length discrete)));
  Ok (c + d).
(** metrics/_counterfactual.py:127-156 _closest_instance; [None] is the initial distance inf *)
Definition closest_instance (dist : list cell -> list cell -> res Qc) (instance : list cell) (dataset : list (list cell))
    : res (list cell) :=
  do best <- foldM (fun (best : list cell * option Qc) row =>
      do d <- dist instance row;
      if match snd best with None => true | Some m => qltb d m end && qltb 0 d then Ok (row, Some d) else Ok best)
    ([], None) dataset;
  Ok (fst best).
(** metrics/_counterfactual.py:159-177 proximity_dissimilarity (default distance) *)
Definition proximity_dissimilarity := moth.
(** metrics/_counterfactual.py:180-198 sparsity_dissimilarity (default distance) *)
Definition sparsity (a b : list cell) : res Qc :=
  pdiv (qn (fold_left (fun n p => (n + neq_cell (fst p) (snd p))%nat) (zip a b) 0%nat)) (qn (List.length a)).
(** metrics/_counterfactual.py:201-221 implausibility (default distance) *)
Definition implausibility (cf : list cell) (dataset : list (list cell)) (continuous discrete : list nat) (mad : dict nat Qc) : res Qc :=
  let dist := fun a b => moth a b continuous discrete mad in
  do c <- closest_instance dist cf dataset; dist cf c.
(** metrics/_counterfactual.py:224-257 instability (default distance) *)
Definition instability (instance cf closest cf_closest : list cell) (continuous discrete : list nat) (mad : dict nat Qc) : res Qc :=
  do c <- moth cf cf_closest continuous discrete mad;
  do i <- moth instance closest continuous discrete mad;
  pdiv c (i + 1).
