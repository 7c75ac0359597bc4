(** * Model of src/teacher/explanation: BaseExplainer, FactualLocalExplainer and the three explainers *)
From Verif Require Import Prelude M_Fuzzy M_Discretize M_Rule M_FDT M_FBDT M_ID3 M_Metrics M_Factual M_Counterfactual.
From Coq Require Import Reals.
Set Implicit Arguments.
Open Scope Qc_scope.

(** _base_explainer.py:19-20, _factual_local_explainer.py:17-20: the attributes target, exp_value and
    explanation, all None at first.  exp_value is the array [[c]] of one predicted class; [F] and [C] are the
    types of factual and counterfactual.  fidelity does not exist before it is first assigned.  (local_explainer,
    factual_method and counterfactual_method are assigned by fit before they are read, and are not modelled.) *)
Record explainer (F C : Type) := mkE {
  e_target : option (list Z); e_value : option Z; e_explanation : option (F * C); e_fidelity : option Qc }.
Arguments mkE {F C}.
Definition new_explainer {F C} : explainer F C := mkE None None None None.
(** _base_explainer.py:26-41 explain *)
Definition explain {F C} (s : explainer F C) : res (F * C) := ret_opt NotFitted (e_explanation s).
(** _factual_local_explainer.py:36-52 hit: the array [[c]] == target *)
Definition hit {F C} (s : explainer F C) : res (list bool) :=
  match e_value s, e_target s with
  | Some c, Some t => Ok (map (Z.eqb c) t)
  | _, _ => Err NotFitted
  end.
(** _factual_local_explainer.py:22-34 write_explanation: the values put into the text.  [pairs] iterates over
    the counterfactual and reads cf[0], cf[1] of every element; None is not subscriptable (TypeError) *)
Definition write_explanation {F C} (pairs : C -> res (list (string * string))) (s : explainer F C)
    : res (Z * F * list (string * string)) :=
  do c <- ret_opt TypeError (e_value s);
  do e <- ret_opt TypeError (e_explanation s);
  do l <- pairs (snd e);
  Ok (c, fst e, l).

(** sklearn.metrics.f1_score for integer labels: F1 of one class (0 when undefined) *)
Definition f1_of (y p : list Z) (c : Z) : Qc :=
  let yp := zip y p in
  let tp := countb (fun q => Z.eqb (fst q) c && Z.eqb (snd q) c) yp in
  let fp := countb (fun q => negb (Z.eqb (fst q) c) && Z.eqb (snd q) c) yp in
  let fn := countb (fun q => Z.eqb (fst q) c && negb (Z.eqb (snd q) c)) yp in
  if Nat.eqb (2 * tp + fp + fn) 0 then 0 else qn (2 * tp) / qn (2 * tp + fp + fn).
(** average='weighted' *)
Definition f1_weighted (y p : list Z) : Qc :=
  qsum (map (fun c => qn (count_class c y) * f1_of y p c) (zunique (y ++ p))) / qn (List.length y).
(** average='binary', pos_label=1: more than two labels, or two labels without 1, raise ValueError *)
Definition f1_binary (y p : list Z) : res Qc :=
  let present := zunique (y ++ p) in
  if Nat.ltb 2 (List.length present) then Err ValueError
  else if negb (memb 1%Z present) && Nat.leb 2 (List.length present) then Err ValueError
  else Ok (f1_of y p 1).

(** what the explainers read from the neighbourhood: get_fuzzy_variables(), get_instance_membership(),
    decoded_instance[0], get_X(), get_y(), get_X_membership() *)
Record nview := mkN {
  n_vars : res (list fvar); n_instance : res imem; n_decoded : res (list cell);
  n_X : res (list (list cell)); n_y : res (list Z); n_XM : res xmem }.

(** the keyword arguments; beta and others may be given explicitly as None, [k_other] are further names *)
Record kwargs := mkK {
  k_depth : option Z; k_min : option Z; k_threshold : option R; k_lam : option Qc; k_beta : option (option Qc);
  k_cont : option (list nat); k_disc : option (list nat); k_mad : option (dict nat Qc); k_dist : option string;
  k_other : list string }.
Definition no_kwargs : kwargs := mkK None None None None None None None None None [].
(** FDT_explainer.py:25-36 and FBDT_explainer.py:24-35: the method tables *)
Inductive fmethod := MFactual | MRFactual | CFactual.
Definition fmethod_of (s : string) : option fmethod :=
  if eqb s "m_factual"%string then Some MFactual else if eqb s "mr_factual"%string then Some MRFactual
  else if eqb s "c_factual"%string then Some CFactual else None.
Inductive cmethod := ICf | FCf | DCf.
Definition cmethod_of (s : string) : option cmethod :=
  if eqb s "i_counterfactual"%string then Some ICf else if eqb s "f_counterfactual"%string then Some FCf
  else if eqb s "d_counterfactual"%string then Some DCf else None.
(** the argument checks of FDT_explainer.py:87-98 and FBDT_explainer.py:84-95 ([instance] is a two-dimensional
    array; check_array rejects an empty one) *)
Definition check_methods (instance : list (list cell)) (factual counterfactual : string) (kw : kwargs) : res (fmethod * cmethod) :=
  if Nat.eqb (List.length (List.concat instance)) 0 then Err ValueError else
  do fm <- ret_opt ValueError (fmethod_of factual);
  if match fm, k_lam kw with CFactual, None => true | _, _ => false end then Err ValueError else
  do cm <- ret_opt ValueError (cmethod_of counterfactual);
  Ok (fm, cm).
Definition or_default {A} (d : A) (o : option A) : A := match o with Some a => a | None => d end.
(** the call self.factual_method(instance_membership, rules, class, **kwargs): the names left in kwargs must be
    parameters of the method.  [extra]: some of cont_idx, disc_idx, mad, cf_dist is left *)
Definition call_factual {V} (mt : rule V -> res Qc) (fm : fmethod) (kw : kwargs) (extra : bool) (rules : list (rule V)) (c : Z)
    : res (list (rule V)) :=
  let given {A} (o : option A) := match o with Some _ => true | None => false end in
  let unknown := extra || negb (Nat.eqb (List.length (k_other kw)) 0) in
  match fm with
  | CFactual =>
      if unknown then Err TypeError else
      do lam <- ret_opt TypeError (k_lam kw); c_factual mt rules c lam (or_default None (k_beta kw))
  | MFactual => if unknown || given (k_lam kw) || given (k_beta kw) then Err TypeError else m_factual mt rules c
  | MRFactual => if unknown || given (k_lam kw) || given (k_beta kw) then Err TypeError else mr_factual mt rules c
  end.
Definition given {A} (o : option A) : bool := match o with Some _ => true | None => false end.

(** _counterfactual.py:239-286 d_counterfactual for any entry of DISTANCES *)
Definition d_counterfactual_by (dist : list cell -> res Qc) (parse : string -> res Qc) (m : imem) (rules : list (rule string)) (c : Z)
    (continuous : list nat) : res (option (list (string * string))) :=
  do cfs <- mapM (fun r =>
      do mc <- apply_changes r m;
      do names <- mapM (fun fr => strongest_set (snd fr)) (fst mc);
      do cells <- mapM (fun ix => if memb (fst ix) continuous then do q <- parse (snd ix); Ok (CNum q) else Ok (CStr (snd ix))) (enumerate names);
      do d <- dist cells; Ok (r, d)) (other_class c rules);
  search_counterfactual m c rules cfs.

(** assignments made before an exception stay: [tryS r s k] runs the rest [k] with the value of [r], or stops with
    the exception of [r] in state [s] *)
Definition tryS {S A} (r : res A) (s : S) (k : A -> S * option exn) : S * option exn :=
  match r with Ok a => k a | Err e => (s, Some e) end.

Section FDTExplainer.
  (** the iteration order of feature sets, identity of name objects, float() and the 'mixed' distance of
      metrics/_counterfactual.py:67-78 are parameters *)
  Variables (ord : list (nat * nat) -> list string -> list string) (same : string -> string -> string -> bool)
    (parse : string -> res Qc) (mixed : list cell -> list cell -> list nat -> list nat -> dict nat Qc -> res Qc).
  Record fdt_args := mkFA {
    a_instance : list (list cell); a_target : list Z; a_nb : nview; a_num : list string;
    a_factual : string; a_counterfactual : string; a_kw : kwargs }.
  (** the explanation: factual rules, and the set of changes or None *)
  Definition fdt_explainer := explainer (list (rule string)) (option (list (string * string))).
  (** FDT_explainer.py:107-123, 150-153: the tree with its defaults *)
  Definition fdt_config (vars : list fvar) (kw : kwargs) : fdt_cfg :=
    mkFDT vars (or_default (1 / 10000)%R (k_threshold kw)) (or_default 10%Z (k_depth kw)) (or_default 1%Z (k_min kw)) qmin AggVote.
  (** FDT_explainer.py:125-148: arguments needed by d_counterfactual *)
  Definition d_args (cm : cmethod) (kw : kwargs) : res (list nat * list nat * dict nat Qc * string) :=
    match cm with
    | DCf => do co <- ret_opt ValueError (k_cont kw); do di <- ret_opt ValueError (k_disc kw); do ma <- ret_opt ValueError (k_mad kw);
             Ok (co, di, ma, or_default "moth"%string (k_dist kw))
    | _ => Ok ([], [], [], ""%string)
    end.
  Definition d_distance_of (d : string) (decoded cells : list cell) (co di : list nat) (ma : dict nat Qc) : res Qc :=
    if eqb d "moth"%string then moth decoded cells co di ma
    else if eqb d "mixed"%string then mixed decoded cells co di ma else Err KeyError.
  (** FDT_explainer.py:164-176 *)
  Definition call_counterfactual (cm : cmethod) (fact : list (rule string)) (m : imem) (rules : list (rule string)) (c : Z) (num : list string)
      (decoded : list cell) (da : list nat * list nat * dict nat Qc * string) : res (option (list (string * string))) :=
    match cm with
    | ICf => i_counterfactual same m rules c num
    | FCf => f_counterfactual same fact m rules c num (qc 1 2)
    | DCf => let '(co, di, ma, d) := da in d_counterfactual_by (fun cells => d_distance_of d decoded cells co di ma) parse m rules c co
    end.
  (** FDT_explainer.py:155-159 *)
  Definition fdt_fidelity (y p : list Z) : res Qc :=
    if Nat.ltb 2 (List.length (zunique y)) then Ok (f1_weighted y p) else f1_binary y p.
  (** FDT_explainer.py:52-177 fit.  self.factual_method is assigned earlier and not modelled; predict of the
      instance reshapes it to one row *)
  Definition fdt_fit (s : fdt_explainer) (a : fdt_args) : fdt_explainer * option exn :=
    tryS (check_methods (a_instance a) (a_factual a) (a_counterfactual a) (a_kw a)) s (fun fc =>
    let s1 := mkE (Some (a_target a)) (e_value s) (e_explanation s) (e_fidelity s) in
    tryS (n_vars (a_nb a)) s1 (fun vars =>
    tryS (n_instance (a_nb a)) s1 (fun m =>
    tryS (n_decoded (a_nb a)) s1 (fun decoded =>
    tryS (n_X (a_nb a)) s1 (fun X =>
    tryS (n_y (a_nb a)) s1 (fun y =>
    tryS (d_args (snd fc) (a_kw a)) s1 (fun da =>
    let cfg := fdt_config vars (a_kw a) in
    tryS (fit cfg ord fresh_root X y) s1 (fun t =>
    tryS (predict cfg t X) s1 (fun p =>
    tryS (fdt_fidelity y p) s1 (fun fid =>
    let s2 := mkE (e_target s1) (e_value s1) (e_explanation s1) (Some fid) in
    tryS (to_rule_based_system t false false) s2 (fun rules =>
    tryS (predict cfg t [List.concat (a_instance a)]) s2 (fun cs =>
    tryS (ret_opt IndexError (nth_error cs 0)) s2 (fun c =>
    let s3 := mkE (e_target s2) (Some c) (e_explanation s2) (e_fidelity s2) in
    let kw := a_kw a in
    let extra := match snd fc with
                 | DCf => false
                 | _ => given (k_cont kw) || given (k_disc kw) || given (k_mad kw) || given (k_dist kw)
                 end in
    tryS (call_factual (matching m) (fst fc) kw extra rules c) s3 (fun fact =>
    tryS (call_counterfactual (snd fc) fact m rules c (a_num a) decoded da) s3 (fun cf =>
    (mkE (e_target s3) (e_value s3) (Some (fact, cf)) (e_fidelity s3), None)))))))))))))))).
  (** iterating None raises TypeError *)
  Definition fdt_pairs (cf : option (list (string * string))) : res (list (string * string)) := ret_opt TypeError cf.
End FDTExplainer.

Section FBDTExplainer.
  Variable psort : list (string * option Qc) -> list (string * option Qc).
  (** FBDT_explainer.py:51-132 fit *)
  Record fbdt_args := mkBA {
    ba_instance : list (list cell); ba_target : list Z; ba_nb : nview; ba_factual : string; ba_counterfactual : string; ba_kw : kwargs }.
  (** the counterfactual is always the same string *)
  Definition fbdt_explainer := explainer (list (rule (list string))) string.
  Definition no_counterfactual : string := "COUNTERFACTUAL NOT IMPLEMENTED FOR BINARY TREE".
  Definition fbdt_fit (s : fbdt_explainer) (a : fbdt_args) : fbdt_explainer * option exn :=
    let kw := ba_kw a in
    tryS (check_methods (ba_instance a) (ba_factual a) (ba_counterfactual a) kw) s (fun fc =>
    let s1 := mkE (Some (ba_target a)) (e_value s) (e_explanation s) (e_fidelity s) in
    tryS (n_vars (ba_nb a)) s1 (fun vars =>
    tryS (n_instance (ba_nb a)) s1 (fun m =>
    tryS (n_X (ba_nb a)) s1 (fun X =>
    tryS (n_y (ba_nb a)) s1 (fun y =>
    let cfg := fdt_config vars kw in
    tryS (bt_fit cfg psort fresh_broot X y) s1 (fun ht =>
    tryS (bpredict cfg (snd ht) X) s1 (fun p =>
    tryS (f1_binary y p) s1 (fun fid =>
    let s2 := mkE (e_target s1) (e_value s1) (e_explanation s1) (Some fid) in
    tryS (to_rule_based_system_b (snd ht) false false) s2 (fun rules =>
    tryS (bpredict cfg (snd ht) [List.concat (ba_instance a)]) s2 (fun cs =>
    tryS (ret_opt IndexError (nth_error cs 0)) s2 (fun c =>
    let s3 := mkE (e_target s2) (Some c) (e_explanation s2) (e_fidelity s2) in
    tryS (call_factual (matching_multi m) (fst fc) kw (given (k_cont kw) || given (k_disc kw) || given (k_mad kw) || given (k_dist kw)) rules c) s3 (fun fact =>
    (mkE (e_target s3) (e_value s3) (Some (fact, no_counterfactual)) (e_fidelity s3), None))))))))))))).
  (** iterating a string gives its characters, and cf[1] of a one-character string raises IndexError *)
  Definition string_pairs (cf : string) : res (list (string * string)) :=
    match cf with EmptyString => Ok [] | String _ _ => Err IndexError end.
End FBDTExplainer.

Section FID3Explainer.
  Variables (cls : list Z -> list Z) (fts : list string -> list string).
  (** FID3_explainer.py:56-59 _get_categorical_fuzzy: for each row the first set of largest degree *)
  Definition categorical_fuzzy (sets : dict string (list Qc)) (rows : nat) : res (list cell) :=
    mapM (fun j =>
      do b <- ret_opt ValueError (max_by (fun a b : string * Qc => qltb (snd a) (snd b)) (map (fun nv => (fst nv, nth j (snd nv) 0)) sets));
      Ok (CStr (fst b))) (seq 0 rows).
  Record fid3_args := mkIA { ia_target : list Z; ia_nb : nview; ia_columns : list string }.
  Definition fid3_explainer := explainer (rule cell) (list (rule cell)).
  (** FID3_explainer.py:61-65 _fuzzify_dataset: every column named by the memberships is replaced *)
  Definition fuzzify_dataset (columns : list string) (X : list (list cell)) (XM : xmem) : res (list (list cell)) :=
    foldM (fun X fs =>
      do col <- categorical_fuzzy (snd fs) (List.length X);
      match index_of (fst fs) columns with
      | Ok i => Ok (map2 (fun row v => firstn i row ++ v :: skipn (S i) row) X col)
      | Err _ => Ok (map2 (fun row v => row ++ [v]) X col)                 (* a new last column *)
      end) X XM.
  (** FID3_explainer.py:26-54 fit: everything up to the rules; the public to_rule_based_system passes two arguments
      to a method that takes one, and raises.  The lines after it are unreachable *)
  Definition fid3_fit (s : fid3_explainer) (a : fid3_args) : fid3_explainer * option exn :=
    let s1 := mkE (Some (ia_target a)) (e_value s) (e_explanation s) (e_fidelity s) in
    tryS (n_XM (ia_nb a)) s1 (fun XM =>
    tryS (n_X (ia_nb a)) s1 (fun X =>
    tryS (n_instance (ia_nb a)) s1 (fun m =>
    tryS (n_y (ia_nb a)) s1 (fun y =>
    tryS (fuzzify_dataset (ia_columns a) X XM) s1 (fun X' =>
    tryS (id3_fit (mkID3 (ia_columns a) (qc 1 10000) 2 1 true) cls fts new_itree X' y) s1 (fun t =>
    tryS (id3_to_rule_based_system (ia_columns a) t false false) s1 (fun rules =>
    (s1, None)))))))).
End FID3Explainer.
