(** * Specification vocabulary: when FDTExplainer.fit succeeds *)
From Verif Require Import Prelude M_Fuzzy M_Rule M_FDT S_FDT S_Counterfactual M_FBDT S_FBDT M_Explainer.
From Coq Require Import Reals.
Set Implicit Arguments.
Open Scope Qc_scope.

(** the row belongs to some set of every variable with degree at least [d] *)
Definition covered (vars : list fvar) (row : list cell) (d : Qc) : Prop :=
  forall a v, nth_error vars a = Some v -> exists i s, nth_error (fv_sets v) i = Some s /\ d <= lit_degree vars row (a, i).
(** f1_score accepts the labels: with exactly two classes one of them must be 1 *)
Definition scorable (y : list Z) : Prop := List.length (zunique y) = 2%nat -> In 1%Z y.
(** no keyword argument is left that the chosen methods do not take *)
Definition accepted (kw : kwargs) (factual : string) : Prop :=
  k_other kw = [] /\ k_cont kw = None /\ k_disc kw = None /\ k_mad kw = None /\ k_dist kw = None /\
  (factual <> "c_factual"%string -> k_lam kw = None /\ k_beta kw = None).
(** a call that gets as far as training: a fitted and fuzzified neighbourhood over [vars] with rows [X] labelled [y], names that
    identify variables and sets, no variable without sets and no numerical one with a single set, values that can be read, the
    memberships [m] of the instance, and a positive threshold *)
Definition prepared (ord : list (nat * nat) -> list string -> list string) (a : fdt_args) (vars : list fvar) (m : imem) (X : list (list cell)) (y : list Z) : Prop :=
  n_vars (a_nb a) = Ok vars /\ n_instance (a_nb a) = Ok m /\ (exists d, n_decoded (a_nb a) = Ok d) /\ n_X (a_nb a) = Ok X /\ n_y (a_nb a) = Ok y /\
  (forall p s, Permutation (ord p s) s) /\ distinct_names vars /\
  (forall v, In v vars -> fv_sets v <> []) /\ (forall v, In v vars -> In (fv_name v) (a_num a) -> (2 <= List.length (fv_sets v))%nat) /\
  List.length X = List.length y /\ y <> [] /\ readable vars X /\
  readable vars [List.concat (a_instance a)] /\ row_membership vars (List.concat (a_instance a)) m /\ proper m /\
  (forall th, k_threshold (a_kw a) = Some th -> (0 < th)%R).

(** f1_score of FBDTExplainer accepts the labels: at most two classes, and of two one must be 1 *)
Definition binary_labels (y : list Z) : Prop := (List.length (zunique y) <= 2)%nat /\ scorable y.
(** a call of FBDTExplainer.fit that gets as far as training, as [prepared]; a single set per variable is no obstacle, and the
    memberships of the instance need not be proper: no counterfactual is computed *)
Definition bprepared (psort : list (string * option Qc) -> list (string * option Qc)) (a : fbdt_args) (vars : list fvar) (m : imem) (X : list (list cell)) (y : list Z) : Prop :=
  n_vars (ba_nb a) = Ok vars /\ n_instance (ba_nb a) = Ok m /\ n_X (ba_nb a) = Ok X /\ n_y (ba_nb a) = Ok y /\
  (forall l, Permutation (psort l) l) /\ distinct_names vars /\ (forall v, In v vars -> fv_sets v <> []) /\
  List.length X = List.length y /\ y <> [] /\ readable vars X /\
  readable vars [List.concat (ba_instance a)] /\ row_membership vars (List.concat (ba_instance a)) m /\
  (forall th, k_threshold (ba_kw a) = Some th -> (0 < th)%R).
