(** * Vocabulary: printed trees and rules (C113-C116) *)
From Verif Require Import Prelude M_Fuzzy M_FDT M_FBDT M_ID3 M_Text.
Set Implicit Arguments.

(** the character number [n] occurs in the text: 9 tab, 10 newline, 32 blank, 39 quote, 58 colon, 93 closing bracket *)
Definition has (n : nat) (s : string) : Prop := In (Ascii.ascii_of_nat n) (list_ascii_of_string s).

(** the lines of a text *)
Fixpoint lines (s : string) : list string :=
  match s with
  | EmptyString => [EmptyString]
  | String c r => if Ascii.eqb c (Ascii.ascii_of_nat 10) then EmptyString :: lines r
                  else match lines r with l :: ls => String c l :: ls | [] => [] end
  end.
(** a line as the number of its leading tabs and the rest *)
Fixpoint indented (s : string) : nat * string :=
  match s with
  | EmptyString => (0%nat, EmptyString)
  | String c r => if Ascii.eqb c (Ascii.ascii_of_nat 9) then (S (fst (indented r)), snd (indented r)) else (0%nat, s)
  end.
(** the lines that do not only consist of tabs *)
Definition printed (s : string) : list (nat * string) := filter (fun l => negb (String.eqb (snd l) EmptyString)) (map indented (lines s)).

(** the nodes of a tree with their depths, parents first *)
Fixpoint outline (d : nat) (t : tree) : list (nat * tree) :=
  let 'Tree leaf cs _ _ _ _ _ := t in (d, t) :: if leaf then [] else List.concat (map (outline (S d)) cs).

Open Scope string_scope.
(** the lines of one node at depth [d] of a trained tree: its branch, and the class weights of a leaf; a branch that no training
    row reaches is not indented *)
Definition heading (vars : list fvar) (n : tree) : string :=
  match t_value n with
  | None => "Root "
  | Some (a, i) => "Feature " ++ match nth_error vars a with
      | Some v => fv_name v ++ " " ++ match nth_error (fv_sets v) i with Some s => fs_name s | None => "" end
      | None => "" end
  end.
Definition node_lines (vars : list fvar) (sd : dict Z Qc -> string) (dn : nat * tree) : list (nat * string) :=
  let indent := if qltb 0 (qsum (t_mu (snd dn))) then fst dn else 0%nat in
  (indent, heading vars (snd dn)) ::
  match t_leaf (snd dn), t_class (snd dn) with true, Some d => [(indent, "Class value: " ++ sd d)] | _, _ => [] end.

(** the same for a binary tree: a branch shows its feature, but not which sets it stands for *)
Fixpoint boutline (t : btree) : list btree :=
  let 'BTree leaf cs _ _ _ _ _ _ := t in t :: if leaf then [] else List.concat (map boutline cs).
Definition bnode_lines (vars : list fvar) (sd : dict Z Qc -> string) (n : btree) : list (nat * string) :=
  (Z.to_nat (b_level n), match b_value n with
    | None => "Root "
    | Some (a, _) => "Feature " ++ match nth_error vars a with Some v => fv_name v | None => "" end ++ " Root "
    end) ::
  match b_leaf n, b_class n with true, Some d => [(Z.to_nat (b_level n), "Class value: " ++ sd d)] | _, _ => [] end.
