(** * Specification vocabulary for explainers *)
From Verif Require Import Prelude M_Fuzzy M_Rule M_Explainer.
Set Implicit Arguments.
Open Scope Qc_scope.

Section History.
  Context {F C A : Type} (fitting : explainer F C -> A -> explainer F C * option exn).
  (** the state after a series of fit calls, each of which may have raised an exception *)
  Fixpoint after (s : explainer F C) (calls : list A) : explainer F C :=
    match calls with [] => s | a :: rest => after (fst (fitting s a)) rest end.
  (** the call succeeds on a new explainer / raises [e] *)
  Definition succeeds (a : A) : Prop := snd (fitting new_explainer a) = None.
  Definition raises (a : A) (e : exn) : Prop := snd (fitting new_explainer a) = Some e.
  Definition fails (a : A) : Prop := exists e, raises a e.
  (** what the call leaves in a new explainer *)
  Definition left_by (a : A) : explainer F C := fst (fitting new_explainer a).
End History.
(** the last value present in a list of optional values *)
Fixpoint last_some {A} (l : list (option A)) : option A :=
  match l with
  | [] => None
  | o :: rest => match last_some rest with Some a => Some a | None => o end
  end.
(** the arguments pass the checks made before anything is recorded: the instance is not empty, the methods are known
    and c_factual comes with its lam *)
Definition valid_arguments (instance : list (list cell)) (factual counterfactual : string) (kw : kwargs) : Prop :=
  (exists row x, In row instance /\ In x row) /\
  In factual ["m_factual"; "mr_factual"; "c_factual"]%string /\
  (factual = "c_factual"%string -> exists lam, k_lam kw = Some lam) /\
  In counterfactual ["i_counterfactual"; "f_counterfactual"; "d_counterfactual"]%string.
