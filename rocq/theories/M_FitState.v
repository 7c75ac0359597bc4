(** * Model of what [fit] leaves in the tree, also when it raises an exception *)
From Verif Require Import Prelude M_Fuzzy M_Discretize M_Rule M_FDT M_FBDT M_ID3.
From Coq Require Import Reals.
Set Implicit Arguments.
Open Scope Qc_scope.

(** a for loop whose body appends to a list until it raises; [step] gives what it appended and
    the exception, if any (fdt_tree.py:237-249 and id3_tree.py:206-222 are such loops) *)
Fixpoint run_st {A B} (step : A -> list B * option exn) (l : list A) : list B * option exn :=
  match l with
  | [] => ([], None)
  | x :: l' => let r := step x in
               match snd r with
               | Some e => (fst r, Some e)
               | None => let r' := run_st step l' in (fst r ++ fst r', snd r')
               end
  end.

(** fdt_tree.py:225-249 _partial_fit: the assignments in the order in which they happen; the
    node as it is when the call returns (None) or raises *)
Fixpoint partial_fit_st (fuel : nat) (cfg : fdt_cfg) (ord : list (nat * nat) -> list string -> list string)
    (XM : xmem) (y : list Z) (node : tree) (path : list (nat * nat)) (features : list string) (depth : Z)
    : tree * option exn :=
  match fuel with
  | O => (node, Some OutOfFuel)
  | S fuel' =>
    let mu := t_mu node in
    let now := fun leaf added class => Tree leaf (t_children node ++ added) class depth (t_value node) (t_var node) mu in
    match max_f_gain qmin mu (ord path features) XM y with                    (* 227; the level is set *)
    | Err e => (now (t_leaf node) [] (t_class node), Some e)
    | Ok (att, gain, child_mu) =>
      if stop_met cfg gain (masked mu y) depth then
        match get_class_value mu y with                                       (* 233-235 *)
        | Err e => (now true [] (t_class node), Some e)
        | Ok cv => (now true [] (Some cv), None)
        end
      else
        match dget att XM with                                                (* 237-238 *)
        | None => (now false [] (t_class node), Some KeyError)
        | Some sets =>
          let r := run_st (fun iv =>
              let '(i, value) := iv in
              match (if negb (memb att features) then Err KeyError else
                     do a <- ret_opt KeyError (dget att (f_positions (f_vars cfg)));
                     do v <- ret_opt IndexError (nth_error (f_vars cfg) a);
                     do m <- ret_opt KeyError (dget value child_mu);
                     Ok (a, v, m)) with
              | Err e => ([], Some e)                                         (* nothing appended yet *)
              | Ok (a, v, m) =>
                if qltb 0 (qsum m) then
                  let r := partial_fit_st fuel' cfg ord XM y (new_tree (Some (a, i)) (Some v) m) (path ++ [(a, i)]) (remove string_dec att features) (depth + 1) in
                  ([fst r], snd r)
                else
                  match get_class_value mu y with
                  | Err e => ([new_tree (Some (a, i)) (Some v) m], Some e)
                  | Ok cv => ([Tree true [] (Some cv) (-1) (Some (a, i)) (Some v) m], None)
                  end
              end) (enumerate (dkeys sets)) in
          (now false (fst r) (t_class node), snd r)
        end
    end
  end.
(** fdt_tree.py:219-223 fit *)
Definition fit_st (cfg : fdt_cfg) (ord : list (nat * nat) -> list string -> list string)
    (root : tree) (X : list (list cell)) (y : list Z) : tree * option exn :=
  if negb (Nat.eqb (List.length X) (List.length y)) || Nat.eqb (List.length y) 0 then (root, Some ValueError) else
  match dataset_membership X (f_vars cfg) with
  | Err e => (root, Some e)
  | Ok XM =>
    let root' := Tree (t_leaf root) (t_children root) (t_class root) (t_level root) (t_value root) (t_var root)
                      (repeat 1 (List.length y)) in
    partial_fit_st (S (List.length (f_features cfg))) cfg ord XM y root' [] (f_features cfg) 0
  end.

(** fdt_binary_tree.py:281-328 _partial_fit: the node as it is at the end, and the arrays
    (those of an interrupted call are not followed further: nothing refers to them but the
    nodes it added) *)
Fixpoint bfit_st (fuel : nat) (cfg : fdt_cfg) psort (cats : list string) (XM : xmem) (y : list Z)
    (h : heap) (node : btree) (fd : dict string (list string)) (depth : Z) : btree * res heap :=
  match fuel with
  | O => (node, Err OutOfFuel)
  | S fuel' =>
    let mu := b_mu node in
    let now := fun leaf added class => BTree leaf (b_children node ++ added) class depth (b_value node) (b_var node) mu (b_ignored node) in
    match max_split psort cats h mu (b_ignored node) fd XM y with             (* 283; the level is set *)
    | Err e => (now (b_leaf node) [] (b_class node), Err e)
    | Ok (h1, best) =>
      if stop_met cfg (best_gain best) (masked mu y) depth then
        match get_class_value mu y with
        | Err e => (now true [] (b_class node), Err e)
        | Ok cv => (now true [] (Some cv), Ok h1)
        end
      else
        match best with
        | None => (now false [] (b_class node),
                   match dget ""%string (f_positions (f_vars cfg)) with None => Err KeyError | Some _ => Err IndexError end)
        | Some s =>
          let att := s_att s in
          match (do a <- ret_opt KeyError (dget att (f_positions (f_vars cfg)));
                 do v <- ret_opt IndexError (nth_error (f_vars cfg) a); Ok (a, v)) with   (* 299-300 *)
          | Err e => (now false [] (b_class node), Err e)
          | Ok (a, v) =>
            let set_dict := dict_of (map (fun js => (fs_name (snd js), fst js)) (enumerate (fv_sets v))) in
            (* 303-315 and 318-328: the list of nodes appended by one side *)
            let grow := fun h names cmu caddr =>
              match mapM (fun n => ret_opt KeyError (dget n set_dict)) names with
              | Err e => ([], Err e)
              | Ok idx =>
                let '(h2, cign) := update_ignored h (b_ignored node) att caddr in
                let child := BTree true [] None (-1) (Some (a, idx)) (Some v) cmu cign in
                match dget att fd with
                | None => ([child], Err KeyError)
                | Some avail =>
                  if qltb 0 (qsum cmu) then
                    let r := bfit_st fuel' cfg psort cats XM y h2 child (dset att (filter (fun x => memb x names) avail) fd) (depth + 1) in
                    ([fst r], snd r)
                  else
                    match get_class_value mu y with
                    | Err e => ([child], Err e)
                    | Ok cv => ([BTree true [] (Some cv) (-1) (Some (a, idx)) (Some v) cmu cign], Ok h2)
                    end
                end
              end in
            let l := grow h1 (s_left s) (s_lmu s) (s_lign s) in
            match snd l with
            | Err e => (now false (fst l) (b_class node), Err e)
            | Ok h2 =>
              let r := grow h2 (s_right s) (s_rmu s) (s_rign s) in
              (now false (fst l ++ fst r) (b_class node), snd r)
            end
          end
        end
    end
  end.
(** fdt_binary_tree.py:271-279 fit *)
Definition bt_fit_st (cfg : fdt_cfg) psort (root : btree) (X : list (list cell)) (y : list Z) : btree * res heap :=
  match categorical_features (f_vars cfg) with
  | Err e => (root, Err e)
  | Ok cats =>
    if negb (Nat.eqb (List.length X) (List.length y)) || Nat.eqb (List.length y) 0 then (root, Err ValueError) else
    match dataset_membership X (f_vars cfg) with
    | Err e => (root, Err e)
    | Ok XM =>
      let root' := BTree (b_leaf root) (b_children root) (b_class root) (b_level root) (b_value root) (b_var root)
                         (repeat 1 (List.length y)) (b_ignored root) in
      bfit_st (fuel_for (initial_sets (f_vars cfg))) cfg psort cats XM y [] root' (initial_sets (f_vars cfg)) 0
    end
  end.

(** id3_tree.py:105-242 _partial_fit: as above.  A child is appended (206) before its rows are
    selected; the error of the node adds up the finished children (216), num_leaf counts them (229) *)
Fixpoint id3_partial_fit_st (fuel : nat) (cfg : id3_cfg) (cls : list Z -> list Z) (fts : list string -> list string)
    (SP : list (list cell)) (yc : list Z) (X : list (list cell)) (y : list Z) (t : itree) (depth : Z) (erased : list string)
    : itree * option exn :=
  match fuel with
  | O => (t, Some OutOfFuel)
  | S fuel' =>
    let num_cases := List.length X in
    let classes := cls y in
    match max_by (fun a b : Z * nat => Nat.ltb (snd a) (snd b)) (map (fun c => (c, count_class c y)) classes) with
    | None =>
        match nth_error yc 0 with
        | None => (ITree (i_var t) true (i_children t) (i_splits t) (i_class t) (i_count t) depth (i_error t) (i_numleaf t), Some IndexError)
        | Some c => (ileaf t c (0, 0)%nat depth 0, None)
        end
    | Some (c, k) =>
      if Nat.eqb num_cases 0 then (ITree (i_var t) (i_leaf t) (i_children t) (i_splits t) c (Some (num_cases, k)) depth (i_error t) (i_numleaf t), Some ZeroDivisionError) else
      let error_node := 1 - qn k / qn num_cases in
      let leaf := ileaf t c (num_cases, k) depth error_node in
      if Z.leb (i_max_depth cfg) depth then (leaf, None)
      else if Z.ltb (Z.of_nat num_cases) (i_min_examples cfg) then (leaf, None)
      else
        let counted := ITree (i_var t) (i_leaf t) (i_children t) (i_splits t) c (Some (num_cases, k)) depth (i_error t) (i_numleaf t) in
        match best_feature (i_positions (i_features cfg)) SP X y classes (fts erased) with
        | Err e => (counted, Some e)
        | Ok best =>
          let var := option_map fst (fst best) in
          let splits := match fst best with Some (_, s) => s | None => [] end in
          match match var with
                | Some i => nth_error (i_features cfg) i
                | None => nth_error (i_features cfg) (List.length (i_features cfg) - 1)
                end with
          | None => (counted, Some IndexError)
          | Some name =>
            let erased' := erased ++ [name] in
            (* the children with the numbers of their rows, [None] for one whose call did not return *)
            let r := run_st (fun s =>
                match match var with Some i => column X i | None => Ok [] end with
                | Err e => ([(new_itree, None)], Some e)
                | Ok col =>
                  let rows := map snd (filter (fun p => eqb (fst p) s) (zip col (zip X y))) in
                  match rows with
                  | [] => ([(empty_child c (depth + 1), Some 0%nat)], None)
                  | _ =>
                    let r := id3_partial_fit_st fuel' cfg cls fts SP yc (map fst rows) (map snd rows) new_itree (depth + 1) erased' in
                    ([(fst r, match snd r with None => Some (List.length rows) | Some _ => None end)], snd r)
                  end
                end) splits in
            let done := flat_map (fun cn => match snd cn with Some n => [(fst cn, n)] | None => [] end) (fst r) in
            let error := qsum (map (fun cn : itree * nat => i_error (fst cn) * (qn (snd cn) / qn (List.length y))) done) in
            let num_leaf := (i_numleaf t + List.length done)%nat in
            let inner := ITree var false (map fst (fst r)) splits c (Some (num_cases, k)) depth error num_leaf in
            match snd r with
            | Some e => (inner, Some e)
            | None =>
              if i_prunning cfg then
                let d := qz (Z.of_nat num_leaf - 1) in
                if qeqb d 0 then (inner, Some ZeroDivisionError)
                else if qltb ((error_node - error) / d) (i_th cfg)
                then (ileaf inner c (num_cases, k) depth error_node, None)
                else (inner, None)
              else (inner, None)
            end
          end
        end
    end
  end.
(** id3_tree.py:100-103 fit *)
Definition id3_fit_st (cfg : id3_cfg) (cls : list Z -> list Z) (fts : list string -> list string) (root : itree)
    (X : list (list cell)) (y : list Z) : itree * option exn :=
  match mapM (fun i => do col <- column X i; np_unique col) (seq 0 (List.length (i_features cfg))) with
  | Err e => (root, Some e)
  | Ok SP => id3_partial_fit_st (S (List.length (i_features cfg))) cfg cls fts SP (zunique y) X y root 0 []
  end.
