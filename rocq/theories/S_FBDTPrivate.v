(** * FBDT training with private copies: the reference semantics for C34 *)
From Verif Require Import Prelude M_Fuzzy M_Discretize M_Rule M_FDT M_FBDT.
From Coq Require Import Reals.
Set Implicit Arguments.
Open Scope Qc_scope.

(** the marks of a node: for features used above it, which training rows are no longer shared out.  These are values:
    every node has its own copy, nothing is shared between nodes. *)
Definition marks := dict string (list Qc).
(** one side of a candidate split: the node's marks afterwards, the memberships of the side and the marks of its child *)
Definition vscore_side (mu : list Qc) (ign : marks) (XM : xmem) (n : nat) (feature : string) (sets : list string) : res (marks * list Qc * list Qc) :=
  do m <- sum_sets XM n feature sets;
  match dget feature ign with
  | Some A => let m1 := map2 qmax m A in Ok (dset feature (mark m1 A) ign, map2 qmin mu m1, mark m1 A)
  | None => Ok (ign, map2 qmin mu m, mark m (repeat 0 n))
  end.
Record vsplit := mkVS { v_att : string; v_gain : R; v_lmu : list Qc; v_rmu : list Qc; v_left : list string; v_right : list string; v_lmarks : list Qc; v_rmarks : list Qc }.
Definition vbest_gain (best : option vsplit) : R := match best with Some s => v_gain s | None => 0%R end.
Definition vscore_partition (XM : xmem) (y : list Z) (mu : list Qc) (ib : marks * option vsplit) (p : partition) : res (marks * option vsplit) :=
  let '(feature, lsets, rsets) := p in
  do l <- vscore_side mu (fst ib) XM (List.length y) feature lsets;
  let '(ign1, lmu, lm) := l in
  do r <- vscore_side mu ign1 XM (List.length y) feature rsets;
  let '(ign2, rmu, rm) := r in
  do g <- split_gain mu lmu rmu y;
  Ok (ign2, if Rltb (vbest_gain (snd ib)) g then Some (mkVS feature g lmu rmu lsets rsets lm rm) else snd ib).
Definition vmax_split psort cats (mu : list Qc) (ign : marks) (fd : dict string (list string)) (XM : xmem) (y : list Z) : res (marks * option vsplit) :=
  do ps <- binary_partitions psort cats fd XM y; foldM (vscore_partition XM y mu) (ign, None) ps.
(** the marks a child starts with *)
Definition inherit (ign : marks) (feature : string) (m : list Qc) : marks := match dget feature ign with Some _ => ign | None => dset feature m ign end.
Fixpoint vfit (fuel : nat) (cfg : fdt_cfg) psort (cats : list string) (XM : xmem) (y : list Z) (node : btree) (ign : marks) (fd : dict string (list string)) (depth : Z) : res btree :=
  match fuel with
  | O => Err OutOfFuel
  | S fuel' =>
    let mu := b_mu node in
    do ib <- vmax_split psort cats mu ign fd XM y;
    let '(ign1, best) := ib in
    if stop_met cfg (vbest_gain best) (masked mu y) depth then
      do cv <- get_class_value mu y;
      Ok (BTree true (b_children node) (Some cv) depth (b_value node) (b_var node) mu [])
    else
      match best with
      | None => match dget ""%string (f_positions (f_vars cfg)) with None => Err KeyError | Some _ => Err IndexError end
      | Some s =>
        let att := v_att s in
        do a <- ret_opt KeyError (dget att (f_positions (f_vars cfg)));
        do v <- ret_opt IndexError (nth_error (f_vars cfg) a);
        let set_dict := dict_of (map (fun js => (fs_name (snd js), fst js)) (enumerate (fv_sets v))) in
        let grow := fun names cmu m =>
          do idx <- mapM (fun n => ret_opt KeyError (dget n set_dict)) names;
          do avail <- ret_opt KeyError (dget att fd);
          let cfd := dset att (filter (fun x => memb x names) avail) fd in
          if qltb 0 (qsum cmu) then
            vfit fuel' cfg psort cats XM y (BTree true [] None (-1) (Some (a, idx)) (Some v) cmu []) (inherit ign1 att m) cfd (depth + 1)
          else
            do cv <- get_class_value mu y;
            Ok (BTree true [] (Some cv) (-1) (Some (a, idx)) (Some v) cmu []) in
        do l <- grow (v_left s) (v_lmu s) (v_lmarks s);
        do r <- grow (v_right s) (v_rmu s) (v_rmarks s);
        Ok (BTree false (b_children node ++ [l; r]) (b_class node) depth (b_value node) (b_var node) mu [])
      end
  end.
(** a tree without the addresses of its arrays *)
Fixpoint erase (t : btree) : btree :=
  let 'BTree l c cv lev v var mu _ := t in BTree l (map erase c) cv lev v var mu [].
(** training with private copies *)
Definition vt_fit (cfg : fdt_cfg) psort (X : list (list cell)) (y : list Z) : res btree :=
  do cats <- categorical_features (f_vars cfg);
  if negb (Nat.eqb (List.length X) (List.length y)) || Nat.eqb (List.length y) 0 then Err ValueError else
  do XM <- dataset_membership X (f_vars cfg);
  vfit (fuel_for (initial_sets (f_vars cfg))) cfg psort cats XM y (BTree true [] None (-1) None None (repeat 1 (List.length y)) []) [] (initial_sets (f_vars cfg)) 0.
