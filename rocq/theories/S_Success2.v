(** * Specification vocabulary: when FDTExplainer.fit with d_counterfactual succeeds *)
From Verif Require Import Prelude M_Fuzzy M_Rule M_Explainer.
Set Implicit Arguments.
Open Scope Qc_scope.

(** the memberships list the variables, and for each its sets, in the order of [vars] *)
Definition follows (vars : list fvar) (m : imem) : Prop :=
  map (fun fr => (fst fr, map fst (snd fr))) m = map (fun v => (fv_name v, map fs_name (fv_sets v))) vars.
(** no keyword argument is left that factual and d_counterfactual do not take *)
Definition accepted_d (kw : kwargs) (factual : string) : Prop :=
  k_other kw = [] /\ (factual <> "c_factual"%string -> k_lam kw = None /\ k_beta kw = None).
(** the distance to every imaginable counterfactual is defined: a variable declared continuous has a number in the decoded
    instance, a non-zero deviation, and sets whose names read as numbers; and if some variable is not declared continuous
    the list of discrete ones is not empty *)
Definition measurable (vars : list fvar) (decoded : list cell) (co di : list nat) (mad : dict nat Qc) (parse : string -> res Qc) : Prop :=
  (forall i v, nth_error vars i = Some v -> In i co ->
     (exists q, nth_error decoded i = Some (CNum q)) /\ (exists w, dget i mad = Some w /\ w <> 0) /\
     forall s, In s (fv_sets v) -> exists q, parse (fs_name s) = Ok q) /\
  (forall i, (i < List.length vars)%nat -> ~ In i co -> di <> []).
