(** * Proofs: the binary fuzzy tree reads its table only through degrees *)
From Verif Require Import Prelude M_Fuzzy M_Discretize M_Rule M_FDT S_FDT P_FDT3 S_Degrees P_Degrees M_FBDT P_FBDT2.
From Coq Require Import Reals Lra.
Local Notation eqb := Prelude.eqb.
Open Scope Qc_scope.

Section Degrees.
  Variable vars vars' : list fvar.
  Hypothesis HN : same_names vars vars'.
  Hypothesis HK : same_kinds vars vars'.

  Lemma cats_same : categorical_features vars' = categorical_features vars.
  Proof.
    unfold categorical_features. match goal with |- bind ?a _ = bind ?b _ => assert (E : a = b) end; [|rewrite E; reflexivity].
    assert (N := HN). assert (K := HK). clear HN HK. unfold same_names in N. unfold same_kinds in K. induction N as [|v v' l l' [N _] F IH]; [reflexivity|]. inversion K as [|? ? ? ? K1 K2]; subst.
    cbn [mapM]. rewrite (IH K2). clear IH K2 K F. destruct (fv_sets v) as [|[c|n w] r], (fv_sets v') as [|[c'|n' w'] r']; cbn in K1; try contradiction; try reflexivity. rewrite N. reflexivity.
  Qed.
  Lemma initial_same : initial_sets vars' = initial_sets vars.
  Proof.
    unfold initial_sets. f_equal. assert (N := HN). clear HN HK. unfold same_names in N. induction N as [|v v' l l' [N M] F IH]; [reflexivity|]. cbn [map]. rewrite N, M, IH. reflexivity.
  Qed.
  Lemma dict_same (l l' : list fset) : map fs_name l = map fs_name l' ->
    map (fun js : nat * fset => (fs_name (snd js), fst js)) (enumerate l') = map (fun js : nat * fset => (fs_name (snd js), fst js)) (enumerate l).
  Proof.
    intro E. unfold enumerate. assert (L : List.length l' = List.length l) by (rewrite <- (map_length fs_name l), E, map_length; reflexivity). rewrite L. generalize (seq 0 (List.length l)) as ks. revert l' E L. induction l as [|s l IH]; intros [|s' l'] E L ks; try discriminate; [reflexivity|].
    destruct ks as [|k ks]; [reflexivity|]. cbn [map] in E. injection E as E1 E2. change (zip (k :: ks) (s' :: l')) with ((k, s') :: zip ks l'). change (zip (k :: ks) (s :: l)) with ((k, s) :: zip ks l). cbn [map fst snd]. rewrite E1. rewrite (IH l' E2); [reflexivity|cbn in L; lia].
  Qed.

  Fixpoint bswap (t : btree) : btree :=
    let 'BTree l cs cv lv va vr mu ig := t in
    BTree l (map bswap cs) cv lv va (match va with Some (a, _) => nth_error vars' a | None => vr end) mu ig.
  Inductive bstored : btree -> Prop :=
  | bstored_node l cs cv lv va vr mu ig : Forall bstored cs -> (forall a i, va = Some (a, i) -> vr = nth_error vars a /\ vr <> None) ->
      bstored (BTree l cs cv lv va vr mu ig).
  Variable cfg cfg' : fdt_cfg.
  Hypothesis Hcfg : f_vars cfg = vars.
  Hypothesis Hcfg' : cfg' = mkFDT vars' (f_threshold cfg) (f_max_depth cfg) (f_min_examples cfg) (f_tnorm cfg) (f_voting cfg).
  Definition pair_swap (p : heap * btree) : heap * btree := (fst p, bswap (snd p)).
  Lemma bswap_bfit psort cats XM y : forall fuel h node fd depth,
    bfit fuel cfg' psort cats XM y h (bswap node) fd depth = rmap pair_swap (bfit fuel cfg psort cats XM y h node fd depth).
  Proof.
    induction fuel as [|fuel IH]; intros h node fd depth; [reflexivity|]. cbn [bfit].
    destruct node as [l cs cv lv va vr mu ig]. cbn [bswap b_mu b_children b_value b_var b_class b_ignored].
    destruct (max_split psort cats h mu ig fd XM y) as [[h1 best]|]; cbn [bind rmap]; [|reflexivity].
    replace (stop_met cfg' (best_gain best) (masked mu y) depth) with (stop_met cfg (best_gain best) (masked mu y) depth) by (rewrite Hcfg'; reflexivity).
    destruct (stop_met cfg (best_gain best) (masked mu y) depth).
    { destruct (get_class_value mu y); cbn [bind rmap]; reflexivity. }
    assert (FV : f_vars cfg' = vars') by (rewrite Hcfg'; reflexivity). rewrite FV, Hcfg, (f_positions_same _ _ HN).
    destruct best as [s|]; [|destruct (dget _ _); reflexivity].
    destruct (dget (s_att s) (f_positions vars)) as [a|]; cbn [ret_opt bind rmap]; [|reflexivity].
    assert (NM := names_nth _ _ HN a).
    destruct (nth_error vars a) as [v|] eqn:V, (nth_error vars' a) as [v'|] eqn:V'; cbn [ret_opt bind rmap]; try contradiction; [|reflexivity].
    destruct NM as [_ N2]. rewrite (dict_same _ _ N2). cbv zeta.
    set (sd := dict_of _).
    assert (G : forall h names cmu caddr,
      (do idx <- mapM (fun n => ret_opt KeyError (dget n sd)) names;
       let '(h2, cign) := update_ignored h ig (s_att s) caddr in
       do avail <- ret_opt KeyError (dget (s_att s) fd);
       (if qltb 0 (qsum cmu)
        then bfit fuel cfg' psort cats XM y h2 (BTree true [] None (-1) (Some (a, idx)) (Some v') cmu cign) (dset (s_att s) (filter (fun x => memb x names) avail) fd) (depth + 1)
        else do cv0 <- get_class_value mu y; Ok (h2, BTree true [] (Some cv0) (-1) (Some (a, idx)) (Some v') cmu cign))) =
      rmap pair_swap
      (do idx <- mapM (fun n => ret_opt KeyError (dget n sd)) names;
       let '(h2, cign) := update_ignored h ig (s_att s) caddr in
       do avail <- ret_opt KeyError (dget (s_att s) fd);
       (if qltb 0 (qsum cmu)
        then bfit fuel cfg psort cats XM y h2 (BTree true [] None (-1) (Some (a, idx)) (Some v) cmu cign) (dset (s_att s) (filter (fun x => memb x names) avail) fd) (depth + 1)
        else do cv0 <- get_class_value mu y; Ok (h2, BTree true [] (Some cv0) (-1) (Some (a, idx)) (Some v) cmu cign)))).
    { intros h0 names cmu caddr. destruct (mapM _ names) as [idx|]; cbn [bind rmap]; [|reflexivity]. destruct (update_ignored h0 ig (s_att s) caddr) as [h2 cign].
      destruct (dget (s_att s) fd) as [avail|]; cbn [ret_opt bind rmap]; [|reflexivity]. destruct (qltb 0 (qsum cmu)).
      - rewrite <- IH. cbn [bswap map]. rewrite V'. reflexivity.
      - destruct (get_class_value mu y); cbn [bind rmap]; [|reflexivity]. unfold pair_swap. cbn [fst snd bswap map]. rewrite V'. reflexivity. }
    rewrite G. match goal with |- bind (rmap _ ?m) _ = rmap _ (bind ?m _) => destruct m as [[hl tl]|] end; cbn [rmap bind]; [|reflexivity]. unfold pair_swap at 1. cbn [fst snd]. rewrite G.
    match goal with |- bind (rmap _ ?m) _ = rmap _ (bind ?m _) => destruct m as [[hr tr]|] end; cbn [rmap bind]; [|reflexivity]. unfold pair_swap. cbn [fst snd bswap]. rewrite map_app. reflexivity.
  Qed.
  Lemma bswap_fit psort root X X' y : alike vars vars' X X' -> bt_fit cfg' psort (bswap root) X' y = rmap pair_swap (bt_fit cfg psort root X y).
  Proof.
    intro A. unfold bt_fit. assert (L := Forall2_length A). rewrite <- L. assert (E : f_vars cfg' = vars') by (rewrite Hcfg'; reflexivity). rewrite E, Hcfg, cats_same.
    destruct (categorical_features vars) as [cats|]; cbn [bind rmap]; [|reflexivity]. destruct (_ || _); [reflexivity|].
    rewrite <- (alike_membership _ _ HN _ _ A). destruct (dataset_membership X vars) as [XM|]; cbn [bind rmap]; [|reflexivity].
    rewrite initial_same. rewrite <- bswap_bfit. destruct root. reflexivity.
  Qed.
  Lemma bstored_bfit psort cats XM y : forall fuel h node fd depth h' t, bstored node -> bfit fuel cfg psort cats XM y h node fd depth = Ok (h', t) -> bstored t.
  Proof.
    induction fuel as [|fuel IH]; intros h node fd depth h' t St H; [discriminate|]. cbn [bfit] in H. inversion St as [l cs cv lv va vr mu ig Sc Sv]; subst node.
    cbn [b_mu b_children b_value b_var b_class b_ignored] in H.
    destruct (max_split psort cats h mu ig fd XM y) as [[h1 best]|]; cbn [bind] in H; [|discriminate].
    destruct (stop_met cfg (best_gain best) (masked mu y) depth).
    { destruct (get_class_value mu y) as [c|]; cbn [bind] in H; [|discriminate]. assert (E : t = BTree true cs (Some c) depth va vr mu ig) by congruence. rewrite E. constructor; assumption. }
    destruct best as [s|]; [|destruct (dget _ _); discriminate].
    destruct (dget (s_att s) (f_positions (f_vars cfg))) as [a|]; cbn [ret_opt bind] in H; [|discriminate].
    destruct (nth_error (f_vars cfg) a) as [v|] eqn:V; cbn [ret_opt bind] in H; [|discriminate]. rewrite Hcfg in V. cbv zeta in H.
    set (sd := dict_of _) in H.
    assert (VV : forall idx (b : nat) (k : list nat), Some (a, idx : list nat) = Some (b, k) -> Some v = nth_error vars b /\ Some v <> None) by (intros idx b k Q; assert (b = a) by congruence; subst b; split; [congruence|discriminate]).
    assert (G : forall h names cmu caddr h' t,
      (do idx <- mapM (fun n => ret_opt KeyError (dget n sd)) names;
       let '(h2, cign) := update_ignored h ig (s_att s) caddr in
       do avail <- ret_opt KeyError (dget (s_att s) fd);
       (if qltb 0 (qsum cmu)
        then bfit fuel cfg psort cats XM y h2 (BTree true [] None (-1) (Some (a, idx)) (Some v) cmu cign) (dset (s_att s) (filter (fun x => memb x names) avail) fd) (depth + 1)
        else do cv0 <- get_class_value mu y; Ok (h2, BTree true [] (Some cv0) (-1) (Some (a, idx)) (Some v) cmu cign))) = Ok (h', t) -> bstored t).
    { intros h0 names cmu caddr h2' t0 F. destruct (mapM _ names) as [idx|]; cbn [bind] in F; [|discriminate]. destruct (update_ignored h0 ig (s_att s) caddr) as [h2 cign].
      destruct (dget (s_att s) fd) as [avail|]; cbn [ret_opt bind] in F; [|discriminate]. destruct (qltb 0 (qsum cmu)).
      - apply IH in F; [assumption|]. constructor; [constructor|apply VV].
      - destruct (get_class_value mu y) as [c|]; cbn [bind] in F; [|discriminate]. assert (Q : t0 = BTree true [] (Some c) (-1) (Some (a, idx)) (Some v) cmu cign) by congruence. rewrite Q. constructor; [constructor|apply VV]. }
    match type of H with bind ?m _ = _ => destruct m as [[hl tl]|] eqn:E1; [|discriminate] end. cbn [bind] in H. apply G in E1.
    match type of H with bind ?m _ = _ => destruct m as [[hr tr]|] eqn:E2; [|discriminate] end. cbn [bind] in H. apply G in E2. cbn [fst snd] in H.
    assert (E' : t = BTree false (cs ++ [tl; tr]) cv depth va vr mu ig) by congruence. rewrite E'. constructor; [|assumption].
    apply Forall_app. split; [assumption|]. repeat constructor; assumption.
  Qed.
  Lemma bstored_fit psort root X y h t : bstored root -> bt_fit cfg psort root X y = Ok (h, t) -> bstored t.
  Proof.
    intros St H. unfold bt_fit in H. destruct (categorical_features (f_vars cfg)) as [cats|]; cbn [bind] in H; [|discriminate]. destruct (_ || _); [discriminate|]. destruct (dataset_membership X (f_vars cfg)) as [XM|]; cbn [bind] in H; [|discriminate].
    eapply bstored_bfit; [|exact H]. inversion St; subst. cbn [b_leaf b_children b_class b_level b_value b_var b_ignored]. constructor; assumption.
  Qed.
  Lemma bstored_fresh : bstored fresh_broot.
  Proof. constructor; [constructor|]. intros; discriminate. Qed.

  Lemma bswap_predict tn X X' : alike vars vars' X X' -> forall t, bstored t -> forall mu, partial_bpredict tn X' mu (bswap t) = partial_bpredict tn X mu t.
  Proof.
    intros A. clear cfg cfg' Hcfg Hcfg'. induction t as [l cs cv lv va vr m ig IH] using btree_ind'. intros St mu. inversion St as [? ? ? ? ? ? ? ? Sc Sv]; subst. cbn [bswap partial_bpredict].
    match goal with |- bind ?a _ = bind ?b _ => assert (E : a = b) end.
    { destruct va as [[a idx]|]; [|reflexivity]. destruct (Sv a idx eq_refl) as [V NV]. rewrite V in *. assert (NM := names_nth _ _ HN a). destruct (nth_error vars a) as [v|] eqn:EV; [|congruence].
      destruct (nth_error vars' a) as [v'|] eqn:EV'; [|contradiction]. cbn [ret_opt bind]. destruct NM as [_ N2]. rewrite <- (Forall2_length A).
      match goal with |- bind ?p _ = bind ?q _ => assert (Q : p = q) end; [|rewrite Q; reflexivity].
      apply mapM_ext. intros i _. assert (Q := sets_nth v v' i N2).
      destruct (nth_error (fv_sets v) i) as [s|] eqn:S, (nth_error (fv_sets v') i) as [s'|] eqn:S'; cbn [ret_opt bind]; try contradiction; [|reflexivity].
      assert (C := alike_column _ _ X X' a v v' A EV EV'). destruct (column X a) as [col|], (column X' a) as [col'|]; cbn [bind]; try contradiction; [|rewrite C; reflexivity].
      rewrite (C i s s' S S'). reflexivity. }
    rewrite E. match goal with |- bind ?a _ = _ => destruct a as [nm|] end; cbn [bind]; [|reflexivity]. destruct l; [reflexivity|]. destruct cs as [|c cs]; [reflexivity|]. cbn [map].
    assert (M : mapM (partial_bpredict tn X' nm) (map bswap (c :: cs)) = mapM (partial_bpredict tn X nm) (c :: cs)).
    { revert IH Sc. generalize (c :: cs) as l0. clear. induction l0 as [|x l0 IH']; intros IH Sc; [reflexivity|]. inversion IH; subst. inversion Sc; subst. cbn [map mapM]. rewrite H1 by assumption. rewrite IH' by assumption. reflexivity. }
    cbn [map] in M. rewrite M. reflexivity.
  Qed.
  Lemma bswap_rules th : forall t, bstored t -> forall prefix, get_brules (bswap t) prefix th = get_brules t prefix th.
  Proof.
    clear cfg cfg' Hcfg Hcfg'. induction t as [l cs cv lv va vr m ig IH] using btree_ind'. intros St prefix. inversion St as [? ? ? ? ? ? ? ? Sc Sv]; subst. cbn [bswap get_brules].
    match goal with |- bind ?a _ = bind ?b _ => assert (E : a = b) end.
    { destruct va as [[a idx]|]; [|reflexivity]. destruct (Sv a idx eq_refl) as [V NV]. rewrite V in *. assert (NM := names_nth _ _ HN a). destruct (nth_error (vars) a) as [v|]; [|congruence].
      destruct (nth_error vars' a) as [v'|]; [|contradiction]. cbn [ret_opt bind]. destruct NM as [N1 N2]. rewrite N1.
      match goal with |- bind ?p _ = bind ?q _ => assert (Q : p = q) end; [|rewrite Q; reflexivity].
      apply mapM_ext. intros i _. assert (Q := sets_nth v v' i N2).
      destruct (nth_error (fv_sets v) i) as [s|], (nth_error (fv_sets v') i) as [s'|]; cbn [ret_opt bind]; try contradiction; [|reflexivity]. rewrite Q. reflexivity. }
    rewrite E. match goal with |- bind ?a _ = _ => destruct a as [nr|] end; cbn [bind]; [|reflexivity]. destruct l; [reflexivity|].
    assert (M : mapM (fun c => get_brules c nr th) (map bswap cs) = mapM (fun c => get_brules c nr th) cs).
    { revert IH Sc. clear. induction cs as [|x l0 IH']; intros IH Sc; [reflexivity|]. inversion IH; subst. inversion Sc; subst. cbn [map mapM]. rewrite H1 by assumption. rewrite IH' by assumption. reflexivity. }
    rewrite M. reflexivity.
  Qed.
End Degrees.
