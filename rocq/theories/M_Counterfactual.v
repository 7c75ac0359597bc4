(** * Model of src/teacher/explanation/_counterfactual.py *)
From Verif Require Import Prelude M_Fuzzy M_Rule M_Metrics.
Set Implicit Arguments.
Open Scope Qc_scope.

(** max(d, key=lambda s: d[s]): the first set of maximal degree; an empty dict raises ValueError *)
Definition strongest_set (row : dict string Qc) : res string :=
  do sv <- ret_opt ValueError (max_by (fun a b => qltb (snd a) (snd b)) row); Ok (fst sv).
(** {key: val for key, val in rule.antecedent}: later literals win *)
Definition ant_dict {V} (r : rule V) : dict string V := dict_of (r_ant r).

(** _counterfactual.py:96-111 _apply_changes: the changed membership (deepcopy, so a new value)
    and the set of changes, in the order they are added *)
Definition apply_feature (rc : dict string string) (f : string) (row : dict string Qc)
    : res (dict string Qc * list (string * string)) :=
  do mx <- strongest_set row;
  match dget f rc with
  | Some v => if eqb mx v then Ok (row, [])
              else Ok (map (fun sd => (fst sd, if eqb (fst sd) v then 1 else 0)) row, [(f, v)])
  | None => Ok (row, [])
  end.
Definition apply_changes (r : rule string) (m : imem) : res (imem * list (string * string)) :=
  do fs <- mapM (fun fr => do rc <- apply_feature (ant_dict r) (fst fr) (snd fr); Ok (fst fr, rc)) m;
  Ok (map (fun frc => (fst frc, fst (snd frc))) fs, List.concat (map (fun frc => snd (snd frc)) fs)).

(** list(d).index(x) *)
Fixpoint index_of (x : string) (l : list string) : res nat :=
  match l with
  | [] => Err ValueError
  | y :: l' => if eqb x y then Ok 0%nat else do i <- index_of x l'; Ok (S i)
  end.
(** _counterfactual.py:89-93 _literal_distance *)
Definition literal_distance (clause : dict string Qc) (v cf : string) : res Qc :=
  do i <- index_of v (dkeys clause);
  do j <- index_of cf (dkeys clause);
  pdiv (qabs (qn i - qn j)) (qn (List.length clause) - 1).
(** _counterfactual.py:84-86 _weighted_literal_distance *)
Definition weighted_literal_distance (clause : dict string Qc) (v cf : string) : res Qc :=
  do d <- literal_distance clause v cf;
  do mu <- ret_opt KeyError (dget cf clause);
  Ok (d * (1 - mu)).

(** _counterfactual.py:68-81 _get_categorical_cf_distance.  `is not` compares object identity:
    [same f a b] says whether the two names of feature [f] are the same object.  The order of
    the set of common keys does not matter for the count. *)
Definition categorical_distance (same : string -> string -> string -> bool)
    (elem cf : dict string string) (num : list string) : nat :=
  countb (fun f =>
      match dget f elem, dget f cf with
      | Some a, Some b => negb (same f a b)
      | _, _ => false
      end)
    (filter (fun f => dmem f cf && negb (memb f num)) (dkeys elem)).
(** the features of [num] (in its order) present in both dictionaries *)
Definition num_keys {A} (elem : dict string A) (cf : dict string string) (num : list string) : list string :=
  filter (fun f => dmem f elem && dmem f cf) num.

(** _counterfactual.py:39-49 _cf_dist_instance *)
Definition fuzzified (m : imem) : res (dict string string) :=
  mapM (fun fr => do s <- strongest_set (snd fr); Ok (fst fr, s)) m.
Definition cf_dist_instance (same : string -> string -> string -> bool) (r : rule string) (m : imem) (num : list string) : res Qc :=
  do fz <- fuzzified m;
  let cf := ant_dict r in
  foldM (fun acc f =>
      do clause <- ret_opt KeyError (dget f m);
      do v <- ret_opt KeyError (dget f fz);
      do w <- ret_opt KeyError (dget f cf);
      do d <- weighted_literal_distance clause v w; Ok (acc + d))
    (qn (categorical_distance same fz cf num)) (num_keys fz cf num).

(** _counterfactual.py:52-65 _cf_dist_rule *)
Definition cf_dist_rule (same : string -> string -> string -> bool) (cf_rule r : rule string) (m : imem) (num : list string) (tau : Qc) : res Qc :=
  let rd := ant_dict r in
  let cf := ant_dict cf_rule in
  do dist <- foldM (fun acc f =>
      do clause <- ret_opt KeyError (dget f m);
      do v <- ret_opt KeyError (dget f rd);
      do w <- ret_opt KeyError (dget f cf);
      do d <- literal_distance clause v w; Ok (acc + d))
    (qn (categorical_distance same rd cf num)) (num_keys rd cf num);
  let sym := qn (List.length (filter (fun f => negb (dmem f cf)) (dkeys rd)) + List.length (filter (fun f => negb (dmem f rd)) (dkeys cf))) in
  Ok (tau * sym + (1 - tau) * dist).

(** _counterfactual.py:114-135 _search_counterfactual.  [vote] is Rule.weighted_vote(rule_list, .) *)
Section Search.
  Variables (m : imem) (c : Z) (vote : imem -> res Z).
  (** multiclass=False *)
  Fixpoint search (sorted_cf : list (rule string * Qc)) : res (option (list (string * string))) :=
    match sorted_cf with
    | [] => Ok None
    | cf :: rest =>
        do mc <- apply_changes (fst cf) m;
        do k <- vote (fst mc);
        if Z.eqb k c then search rest else Ok (Some (snd mc))
    end.
  (** multiclass=True; [possible] is the number of classes of the candidates *)
  Fixpoint search_multi (possible : nat) (sorted_cf : list (rule string * Qc)) (found : dict Z (list (string * string)))
      : res (dict Z (list (string * string))) :=
    match sorted_cf with
    | [] => Ok found
    | cf :: rest =>
        do mc <- apply_changes (fst cf) m;
        do k <- vote (fst mc);
        if Z.eqb k c || dmem k found then search_multi possible rest found
        else let found' := dset k (snd mc) found in
             if Nat.eqb (List.length found') possible then Ok found' else search_multi possible rest found'
    end.
End Search.
Definition search_counterfactual (m : imem) (c : Z) (rules : list (rule string)) (cf_list : list (rule string * Qc))
    : res (option (list (string * string))) :=
  search m c (weighted_vote rules) (sort_asc snd cf_list).
Definition search_counterfactual_multi (m : imem) (c : Z) (rules : list (rule string)) (cf_list : list (rule string * Qc))
    : res (dict Z (list (string * string))) :=
  search_multi m c (weighted_vote rules) (List.length (zunique (map (fun cf => r_cons (fst cf)) cf_list))) (sort_asc snd cf_list) [].

Definition other_class (c : Z) (rules : list (rule string)) : list (rule string) :=
  filter (fun r => negb (Z.eqb (r_cons r) c)) rules.
(** _counterfactual.py:171-195 i_counterfactual *)
Definition i_candidates same (m : imem) (rules : list (rule string)) (c : Z) (num : list string) : res (list (rule string * Qc)) :=
  mapM (fun r => do d <- cf_dist_instance same r m num; Ok (r, d)) (other_class c rules).
Definition i_counterfactual same (m : imem) (rules : list (rule string)) (c : Z) (num : list string) : res (option (list (string * string))) :=
  do cfs <- i_candidates same m rules c num; search_counterfactual m c rules cfs.
Definition i_counterfactual_multi same (m : imem) (rules : list (rule string)) (c : Z) (num : list string) : res (dict Z (list (string * string))) :=
  do cfs <- i_candidates same m rules c num; search_counterfactual_multi m c rules cfs.

(** _counterfactual.py:198-236 f_counterfactual *)
Definition f_distance same (factual : list (rule string)) (m : imem) (num : list string) (tau : Qc) (r : rule string) : res Qc :=
  foldM (fun acc fr =>
      do md <- matching m fr;
      do d <- cf_dist_rule same r fr m num tau;
      Ok (acc + md * d)) 0 factual.
Definition f_counterfactual same (factual : list (rule string)) (m : imem) (rules : list (rule string)) (c : Z) (num : list string) (tau : Qc)
    : res (option (list (string * string))) :=
  do cfs <- mapM (fun r => do d <- f_distance same factual m num tau r; Ok (r, d)) (other_class c rules);
  search_counterfactual m c rules (filter (fun cf => qltb 0 (snd cf)) cfs).

(** _counterfactual.py:239-286 d_counterfactual (distance='moth'); [parse] is float(name) *)
Definition d_distance (parse : string -> res Qc) (decoded : list cell) (m : imem) (continuous discrete : list nat) (mad : dict nat Qc) (r : rule string) : res Qc :=
  do mc <- apply_changes r m;
  do names <- mapM (fun fr => strongest_set (snd fr)) (fst mc);
  do cells <- mapM (fun ix => if memb (fst ix) continuous then do q <- parse (snd ix); Ok (CNum q) else Ok (CStr (snd ix))) (enumerate names);
  moth decoded cells continuous discrete mad.
Definition d_counterfactual parse (decoded : list cell) (m : imem) (rules : list (rule string)) (c : Z) (continuous discrete : list nat) (mad : dict nat Qc)
    : res (option (list (string * string))) :=
  do cfs <- mapM (fun r => do d <- d_distance parse decoded m continuous discrete mad r; Ok (r, d)) (other_class c rules);
  search_counterfactual m c rules cfs.

(** _counterfactual.py:22-36 _compare_rules_FID3: the number of features on which the two
    antecedents (as dictionaries) differ *)
Definition compare_rules_FID3 (factual counter : rule string) : nat :=
  let fa := ant_dict factual in
  let ca := ant_dict counter in
  let differs := fun f => negb (match dget f fa, dget f ca with Some a, Some b => eqb a b | _, _ => false end) in
  List.length (nodup string_dec (filter differs (dkeys fa) ++ filter differs (dkeys ca))).
(** _counterfactual.py:138-168 FID3_counterfactual; [None] is np.inf *)
Definition FID3_counterfactual (factual : rule string) (counter_rules : list (rule string)) : list (rule string) * option nat :=
  fold_left (fun best r =>
      let d := compare_rules_FID3 factual r in
      match snd best with
      | None => ([r], Some d)
      | Some m => if Nat.ltb d m then ([r], Some d) else if Nat.eqb d m then (fst best ++ [r], Some m) else best
      end) counter_rules ([], None).
