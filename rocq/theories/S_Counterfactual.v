(** * Specification vocabulary for counterfactual explanations *)
From Verif Require Import Prelude M_Rule.
Set Implicit Arguments.
Open Scope Qc_scope.

(** the instance membership is a proper dictionary of non-empty dictionaries *)
Definition proper (m : imem) : Prop :=
  NoDup (map fst m) /\ forall f row, In (f, row) m -> row <> [] /\ NoDup (map fst row).
(** rule [r] asks for set [v] of feature [f] (with repeated features, the last literal counts) *)
Definition wants (r : rule string) (f v : string) : Prop :=
  exists l1 l2, r_ant r = l1 ++ (f, v) :: l2 /\ ~ In f (map fst l2).
(** [s] is the strongest set of a feature: the first of the largest degree *)
Definition strongest (row : dict string Qc) (s : string) : Prop :=
  exists l1 d l2, row = l1 ++ (s, d) :: l2 /\
    (forall x, In x l1 -> snd x < d) /\ (forall x, In x l2 -> snd x <= d).
(** the crisp row: 1 for [v], 0 for all other sets *)
Definition crisp_row (v : string) (row : dict string Qc) : dict string Qc :=
  map (fun sd => (fst sd, if string_dec (fst sd) v then 1 else 0)) row.
(** [row'] is what becomes of the row of feature [f] when rule [r] is applied *)
Definition row_applied (r : rule string) (f : string) (row row' : dict string Qc) : Prop :=
  (row' = row /\ ((forall v, ~ wants r f v) \/ (exists v, wants r f v /\ strongest row v))) \/
  (exists v, wants r f v /\ ~ strongest row v /\ row' = crisp_row v row).
(** [m'] is instance [m] with the changes of rule [r] applied *)
Definition applied (r : rule string) (m m' : imem) : Prop :=
  Forall2 (fun fr fr' => fst fr' = fst fr /\ row_applied r (fst fr) (snd fr) (snd fr')) m m'.
(** [ch] is the set of changes rule [r] means to instance [m] *)
Definition changes (r : rule string) (m : imem) (ch : list (string * string)) : Prop :=
  NoDup ch /\ forall f v, In (f, v) ch <-> wants r f v /\ exists row, In (f, row) m /\ ~ strongest row v.
(** after applying [r] to [m] the rule base votes [k] *)
Definition leads_to (vote : imem -> res Z) (r : rule string) (m : imem) (k : Z) : Prop :=
  exists m', applied r m m' /\ vote m' = Ok k.
(** [ch] is a valid closest counterfactual for class [c] among the candidates [cands] (in rule
    order) with distances [dist]: it is the set of changes of a candidate that makes the vote
    leave [c]; all nearer candidates, and equally near earlier ones, leave the vote at [c] *)
Definition closest_flip (vote : imem -> res Z) (m : imem) (c : Z) (cands : list (rule string)) (dist : rule string -> Qc)
    (ok : Z -> Prop) (ch : list (string * string)) : Prop :=
  exists l1 r l2 k, cands = l1 ++ r :: l2 /\ changes r m ch /\ leads_to vote r m k /\ ok k /\
    (forall r' k', In r' cands -> dist r' < dist r -> leads_to vote r' m k' -> ~ ok k') /\
    (forall r' k', In r' l1 -> dist r' = dist r -> leads_to vote r' m k' -> ~ ok k').

(** two antecedents (as dictionaries) differ on feature [f]; [n] features differ *)
Definition differ (a b : rule string) (f : string) : Prop :=
  exists v, (wants a f v /\ ~ wants b f v) \/ (wants b f v /\ ~ wants a f v).
Definition n_differ (a b : rule string) (n : nat) : Prop :=
  exists fs, NoDup fs /\ (forall f, In f fs <-> differ a b f) /\ n = List.length fs.

(** the distance between two sets of a variable: steps between them over the number of sets - 1 *)
Definition steps (row : dict string Qc) (v w : string) (x : Qc) : Prop :=
  exists i j, nth_error (map fst row) i = Some v /\ nth_error (map fst row) j = Some w /\
    (2 <= List.length row)%nat /\ x = qabs (qn i - qn j) / (qn (List.length row) - 1).
(** what feature [f], mentioned by rule [r], adds to its distance to instance [m]; [num] are the
    numerical columns *)
Definition instance_cost (m : imem) (num : list string) (r : rule string) (f : string) (x : Qc) : Prop :=
  exists row v w, In (f, row) m /\ strongest row v /\ wants r f w /\
    ((~ In f num /\ (v = w /\ x = 0 \/ v <> w /\ x = 1)) \/
     (In f num /\ exists s mu, steps row v w s /\ In (w, mu) row /\ x = s * (1 - mu))).
(** what a feature mentioned by both rules adds to the distance of two rules *)
Definition rule_cost (m : imem) (num : list string) (r r' : rule string) (f : string) (x : Qc) : Prop :=
  exists v w, wants r f v /\ wants r' f w /\
    ((~ In f num /\ (v = w /\ x = 0 \/ v <> w /\ x = 1)) \/
     (In f num /\ exists row, In (f, row) m /\ steps row v w x)).
(** [fs] lists the features satisfying [P] *)
Definition lists (fs : list string) (P : string -> Prop) : Prop := NoDup fs /\ forall f, In f fs <-> P f.
