(** * Vocabulary: fitting an ID3 estimator again (C134) *)
From Verif Require Import Prelude M_Fuzzy M_Discretize M_Rule M_ID3.
Set Implicit Arguments.

(** the estimator holding [t] is fitted [m] more times on the same data *)
Fixpoint id3_refits (cfg : id3_cfg) (cls : list Z -> list Z) (fts : list string -> list string) (X : list (list cell)) (y : list Z) (m : nat) (t : itree) : res itree :=
  match m with
  | O => Ok t
  | S m' => do t' <- id3_fit cfg cls fts t X y; id3_refits cfg cls fts X y m' t'
  end.
(** two trees predict the same for every table and print the same rules *)
Definition answers_alike (features : list string) (t t' : itree) : Prop :=
  (forall X, id3_predict t X = id3_predict t' X) /\ forall args, id3_tree_rules features t args = id3_tree_rules features t' args.
(** a tree that predicts [c] for every row *)
Definition always (t : itree) (c : Z) : Prop := forall X, X <> [] -> id3_predict t X = Ok (map (fun _ => Some c) X).
(** [c] is a most frequent label of [y], with share [p] *)
Definition leading (y : list Z) (c : Z) (p : Qc) : Prop :=
  (forall c', (count_occ Z.eq_dec y c' <= count_occ Z.eq_dec y c)%nat) /\ p = (qn (count_occ Z.eq_dec y c) / qn (List.length y))%Qc.
